(** Linear regression with an L1 penalty: the iteration ends unless its penalty parameter keeps
    changing (C69). *)
From Coq Require Import List Bool Arith ZArith Lia Reals Lra Psatz Classical.
From Verif Require Import Num Arr Families Data Reg Irls FitM Model RInst SpecIrls IrlsFacts IrlsProofs
  LoopReal SpecGlm FamFacts Lin SpecData DataReal SpecFit FitFacts RegFacts AdmmProps GlmCalc GlmProps WitFit
  SpecLinear LinearFit SpecGap OptGap.
Import ListNotations.
Local Open Scope R_scope.

(** ** One iteration of the alternating direction method with a proximal term *)
Section Step.
  Variables (n p : nat) (w : nat -> R) (x : nat -> nat -> R) (l : nat -> R).
  Hypothesis Hw : forall i, (i < n)%nat -> 0 <= w i.
  Hypothesis Hl : forall k, (k < p)%nat -> 0 <= l k.
  Notation QG := (BG n p w x).
  Notation QA := (BA n p w x l).
  Definition ip (u v : nat -> R) : R := sumn p (fun k => u k * v k).

  Lemma ip_lin a b u v z : ip (fun k => a * u k + b * v k) z = a * ip u z + b * ip v z.
  Proof. unfold ip. rewrite <- !sumn_scal, <- sumn_add. apply sumn_ext. intros. ring. Qed.
  Lemma ip_sym u v : ip u v = ip v u.
  Proof. apply sumn_ext. intros. ring. Qed.
  Lemma ip_nonneg u : 0 <= ip u u.
  Proof. apply sumn_nonneg. intros. nra. Qed.
  Lemma ip_ext u v z : (forall k, (k < p)%nat -> u k = v k) -> ip u z = ip v z.
  Proof. intros H. apply sumn_ext. intros. now rewrite H. Qed.

  (** The difference of squares of a form. *)
  Lemma form_sub (B : (nat -> R) -> (nat -> R) -> R) :
    (forall a b u v z, B (fun k => a * u k + b * v k) z = a * B u z + b * B v z) ->
    (forall u v, B u v = B v u) ->
    (forall u v z, (forall k, (k < p)%nat -> u k = v k) -> B u z = B v z) ->
    forall u v, B (fun k => u k - v k) (fun k => u k - v k) = B u u - 2 * B u v + B v v.
  Proof.
    intros Lin Sym Ext u v.
    rewrite (Ext _ (fun k => 1 * u k + (-1) * v k)) by (intros; ring).
    rewrite Lin, (Sym u), (Sym v).
    rewrite !(Ext (fun k => u k - v k) (fun k => 1 * u k + (-1) * v k)) by (intros; ring).
    rewrite !Lin, (Sym v u). ring.
  Qed.
  Lemma form_subr (B : (nat -> R) -> (nat -> R) -> R) :
    (forall a b u v z, B (fun k => a * u k + b * v k) z = a * B u z + b * B v z) ->
    (forall u v, B u v = B v u) ->
    (forall u v z, (forall k, (k < p)%nat -> u k = v k) -> B u z = B v z) ->
    forall z u v, B z (fun k => u k - v k) = B z u - B z v.
  Proof.
    intros Lin Sym Ext z u v. rewrite Sym.
    rewrite (Ext _ (fun k => 1 * u k + (-1) * v k)) by (intros; ring).
    rewrite Lin, (Sym u), (Sym v). ring.
  Qed.

  Variables (eps rho : R).
  Hypothesis Heps : 0 <= eps.
  Hypothesis Hrho : 0 < rho.
  Variables bp b z z1 y y1 : nat -> R.
  Hypothesis H1 : forall v, QA v b + eps * QG v (fun k => b k - bp k) + rho * ip v (fun k => b k - z k) + ip v y = 0.
  Hypothesis H2 : forall k, (k < p)%nat -> y1 k = y k + rho * (b k - z1 k).
  Hypothesis H3 : 0 <= ip y1 z1.
  Hypothesis H4 : 0 <= ip (fun k => y1 k - y k) (fun k => z1 k - z k).

  Lemma admm_decrease :
    eps * QG b b + ip y1 y1 / rho + rho * ip z1 z1 +
    (rho * ip (fun k => b k - z1 k) (fun k => b k - z1 k) + rho * ip (fun k => z1 k - z k) (fun k => z1 k - z k)) <=
    eps * QG bp bp + ip y y / rho + rho * ip z z.
  Proof.
    pose proof (form_sub QG (BG_lin n p w x) (BG_sym n p w x) (BG_ext n p w x) b bp) as SG.
    pose proof (form_subr QG (BG_lin n p w x) (BG_sym n p w x) (BG_ext n p w x) b b bp) as SG2.
    pose proof (form_sub ip ip_lin ip_sym ip_ext) as SI.
    pose proof (form_subr ip ip_lin ip_sym ip_ext) as SR.
    assert (SL : forall u v t, ip (fun k => u k - v k) t = ip u t - ip v t).
    { intros u v t. rewrite ip_sym, SR, (ip_sym t u), (ip_sym t v). reflexivity. }
    pose proof (BG_nonneg n p w x Hw (fun k => b k - bp k)) as PG.
    pose proof (BA_nonneg n p w x l Hw Hl b) as PA.
    pose proof (H1 b) as E. rewrite SG2, SR in E.
    assert (Y : forall v, ip v y1 = ip v y + rho * (ip v b - ip v z1)).
    { intros v. rewrite <- SR. unfold ip. rewrite <- sumn_scal, <- sumn_add. apply sumn_ext. intros k Hk.
      rewrite H2 by assumption. ring. }
    assert (Yy : ip y1 y1 = ip y y + 2 * rho * (ip y b - ip y z1) + rho * rho * ip (fun k => b k - z1 k) (fun k => b k - z1 k)).
    { rewrite Y, (ip_sym y1 y), (ip_sym y1 b), (ip_sym y1 z1), !Y, SI.
      rewrite (ip_sym b y), (ip_sym z1 y), (ip_sym z1 b). ring. }
    assert (Hz1 : ip y1 z1 = ip y z1 + rho * (ip b z1 - ip z1 z1)).
    { rewrite (ip_sym y1), Y, (ip_sym z1 y), (ip_sym z1 b). ring. }
    assert (Hd : ip (fun k => y1 k - y k) (fun k => z1 k - z k) =
                 rho * (ip b z1 - ip b z - ip z1 z1 + ip z1 z)).
    { rewrite SL, !SR, (ip_sym y1 z1), (ip_sym y1 z), !Y, (ip_sym z1 y), (ip_sym z y), (ip_sym z1 b), (ip_sym z b), (ip_sym z z1).
      ring. }
    rewrite Hd in H4. rewrite Hz1 in H3. rewrite Yy, !SI. rewrite (ip_sym b y) in E.
    set (g1 := QG b b) in *. set (g2 := QG b bp) in *. set (g3 := QG bp bp) in *. set (qa := QA b b) in *.
    set (yy := ip y y) in *. set (yb := ip y b) in *. set (yz := ip y z1) in *.
    set (bb := ip b b) in *. set (bz := ip b z) in *. set (bz1 := ip b z1) in *.
    set (zz := ip z z) in *. set (z1z := ip z1 z) in *. set (zz1 := ip z1 z1) in *.
    rewrite SG in PG. fold g1 g2 g3 in PG.
    assert (Dv : (yy + 2 * rho * (yb - yz) + rho * rho * (bb - 2 * bz1 + zz1)) / rho =
                 yy / rho + 2 * (yb - yz) + rho * (bb - 2 * bz1 + zz1)) by (field; lra).
    rewrite Dv.
    assert (0 <= eps * (g1 - 2 * g2 + g3)) by now apply Rmult_le_pos.
    lra.
  Qed.
End Step.

(** ** The states of a fit *)
Section Lasso.
  Context {e : MachEps}.
  Variables (d : dataset R) (o : fit_options R) (bs : list R).
  Variable solveh : mat R -> list R -> option (list R).
  Notation p := (npar d).
  Notation n := (nobs d).
  Notation ic := (d_intercept d).
  Notation G := (glm_of FLinear).
  Hypothesis Heps : 0 <= mach_eps.
  Hypothesis Hwf : wf d.
  Hypothesis Hwn : weights_nonneg d.
  Hypothesis Hse : solver_exact solveh.
  Hypothesis Hsd : definite_solver solveh.
  Hypothesis Hl1 : 0 < o_l1 o.
  Hypothesis Hbs : length bs = p.
  Hypothesis Hkkt : kkt FLinear o d bs.

  Notation QG := (BG n p (wtv d) (xv d)).
  Notation QL := (BL p (l2c o ic)).
  Notation QA := (BA n p (wtv d) (xv d) (l2c o ic)).
  Notation ip := (ip p).
  Notation er := (er bs).
  (** The errors of the shrunken copy and of the dual variable. *)
  Definition zf (a : admm R) (k : nat) : R := vg (a_dual a) k - vg bs k.
  Definition yf (a : admm R) (k : nat) : R := a_rho a * vg (a_cum a) k - gradv FLinear o d bs k.
  Definition df (b c : list R) (k : nat) : R := vg b k - vg c k.

  Let wt_nn : forall i, (i < n)%nat -> 0 <= wtv d i := wt_nonneg d Hwn.
  Let l2_nn : forall k, (k < p)%nat -> 0 <= l2c o ic k := l2_nonneg d o.

  Definition U (b : list R) (a : admm R) : R :=
    mach_eps * QG (er b) (er b) + ip (yf a) (yf a) / a_rho a + a_rho a * ip (zf a) (zf a).
  Definition D (b : list R) (a a' : admm R) : R :=
    a_rho a' * ip (fun k => er b k - zf a' k) (fun k => er b k - zf a' k) +
    a_rho a' * ip (fun k => zf a' k - zf a k) (fun k => zf a' k - zf a k).

  Lemma U_nonneg b a : 0 < a_rho a -> 0 <= U b a.
  Proof.
    intros H. unfold U. pose proof (BG_nonneg n p (wtv d) (xv d) wt_nn (er b)) as P1.
    pose proof (ip_nonneg p (yf a)) as P2. pose proof (ip_nonneg p (zf a)) as P3.
    assert (0 <= mach_eps * QG (er b) (er b)) by now apply Rmult_le_pos.
    assert (0 <= ip (yf a) (yf a) / a_rho a).
    { apply Rmult_le_pos; [assumption|]. left. now apply Rinv_0_lt_compat. }
    assert (0 <= a_rho a * ip (zf a) (zf a)) by (apply Rmult_le_pos; lra). lra.
  Qed.
  Lemma D_nonneg b a a' : 0 < a_rho a' -> 0 <= D b a a'.
  Proof.
    intros H. unfold D. pose proof (ip_nonneg p (fun k => er b k - zf a' k)).
    pose proof (ip_nonneg p (fun k => zf a' k - zf a k)).
    assert (0 <= a_rho a') by lra.
    apply Rplus_le_le_0_compat; now apply Rmult_le_pos.
  Qed.

  Lemma admm_facts st : state_ok o d st ->
    exists a, admm_of (i_reg st) = Some a /\ admm_of (updated_reg st) = Some (admm_prepare a (i_guess st)) /\
      admm_ok p a /\ a_l1 a = coefs (o_l1 o) p ic /\ 0 < a_rho a /\ 0 < a_rho (admm_prepare a (i_guess st)) /\
      rho_of (i_reg st) = a_rho a /\ rho_of (updated_reg st) = a_rho (admm_prepare a (i_guess st)).
  Proof.
    intros Hst. destruct (updated_ok d o st Hst) as (_ & Hok). destruct Hst as (Hb & Hr & Ha).
    unfold updated_reg in *. destruct (i_reg st) as [|l2|a|l2 a]; cbn [reg_is reg_prepare admm_of rho_of] in *; try lra.
    - destruct (Ha a eq_refl) as (L1 & L2 & L3). destruct (Hok _ eq_refl) as (_ & P). destruct Hr as (_ & _ & El).
      exists a. repeat split; auto. rewrite El. apply coefs_length.
    - destruct (Ha a eq_refl) as (L1 & L2 & L3). destruct (Hok _ eq_refl) as (_ & P). destruct Hr as (_ & _ & El & _).
      exists a. repeat split; auto. rewrite El. apply coefs_length.
  Qed.

  (** Monotonicity of the subgradients of the penalty. *)
  Lemma sub_mono l y z y1 z1 : 0 <= l -> Rabs y <= l -> y * z = l * Rabs z ->
    Rabs y1 <= l -> y1 * z1 = l * Rabs z1 -> 0 <= (y1 - y) * (z1 - z).
  Proof.
    intros Hl A1 B1 A2 B2.
    assert (T : forall y z, Rabs y <= l -> y * z <= l * Rabs z).
    { intros y0 z0 H. apply Rle_trans with (Rabs (y0 * z0)); [apply Rle_abs|]. rewrite Rabs_mult.
      apply Rmult_le_compat_r; [apply Rabs_pos|assumption]. }
    pose proof (T y z1 A1). pose proof (T y1 z A2). lra.
  Qed.
  Lemma kkt_sub k : (k < p)%nat -> Rabs (gradv FLinear o d bs k) <= l1c o ic k /\
    gradv FLinear o d bs k * vg bs k = l1c o ic k * Rabs (vg bs k).
  Proof.
    intros Hk. destruct (Hkkt k Hk) as (K1 & K2). split; [exact K1|].
    destruct (Req_dec (vg bs k) 0) as [E|E]; [rewrite E, Rabs_R0; ring|].
    rewrite (K2 E). unfold sgn. destruct (Rlt_dec _ _) as [H|H]; [rewrite Rabs_left by assumption; ring|].
    destruct (Rlt_dec _ _) as [H'|H']; [rewrite Rabs_right by lra; ring|]. exfalso. lra.
  Qed.

  (** The gradient is linear. *)
  Lemma grad_weak b v : sumn p (fun j => v j * (gradv FLinear o d b j - gradv FLinear o d bs j)) = - QA v (er b).
  Proof.
    unfold BA.
    assert (E : QG v (er b) = sumn p (fun j => v j * sumn n (fun i => wtv d i * (lpv d b i - lpv d bs i) * xv d i j))).
    { unfold BG. rewrite (sumn_ext p _ (fun j => sumn n (fun i => wtv d i * (lpv d b i - lpv d bs i) * (xv d i j * v j))))
        by (intros; rewrite <- sumn_scal; apply sumn_ext; intros; ring).
      rewrite sumn_swap. apply sumn_ext. intros i Hi. rewrite sumn_scal, er_xu. unfold xu. ring. }
    rewrite E. unfold BL. rewrite <- sumn_add, <- sumn_opp. apply sumn_ext. intros j Hj.
    unfold gradv, LinearFit.er.
    rewrite (sumn_ext n (fun i => wtv d i * (lpv d b i - lpv d bs i) * xv d i j)
      (fun i => wtv d i * es_of FLinear (yv d i) (lpv d bs i) * xv d i j -
                wtv d i * es_of FLinear (yv d i) (lpv d b i) * xv d i j)).
    - rewrite sumn_sub. ring.
    - intros i Hi. unfold es_of. cbn. ring.
  Qed.
  Lemma df_xu b c i : xu p (xv d) (df b c) i = lpv d b i - lpv d c i.
  Proof.
    unfold xu, df, lpv. rewrite (sumn_ext p _ (fun k => xv d i k * vg b k - xv d i k * vg c k)) by (intros; ring).
    rewrite sumn_sub. ring.
  Qed.

  (** What the solver answers. *)
  Lemma newton_weak st ng a : state_ok o d st -> proposed G solveh d st = Some ng ->
    admm_of (updated_reg st) = Some a ->
    length ng = p /\
    forall v, (1 + mach_eps) * QG v (df ng (i_guess st)) + QL v (df ng (i_guess st)) +
              a_rho a * ip v (df ng (i_guess st)) =
              sumn p (fun j => v j * gradv FLinear o d (i_guess st) j) -
              a_rho a * ip v (fun k => vg (i_guess st) k - vg (a_dual a) k + vg (a_cum a) k).
  Proof.
    intros Hst Hp Ha. destruct (newton_eq FLinear d o Hwf solveh st ng Hse Hst Hp) as (Hl & He).
    split; [exact Hl|]. intros v. set (b := i_guess st) in *.
    assert (Er : rho_of (updated_reg st) = a_rho a) by (destruct (updated_reg st); cbn in *; congruence).
    assert (E : forall j, (j < p)%nat ->
      sumn n (fun i => wtv d i * (av_of FLinear (lpv d b i) + mach_eps) * (lpv d ng i - lpv d b i) * xv d i j) +
      (l2c o ic j + a_rho a) * (vg ng j - vg b j) =
      gradv FLinear o d b j - a_rho a * (vg b j - vg (a_dual a) j + vg (a_cum a) j)).
    { intros j Hj. rewrite <- Er, <- (newton_left FLinear d o b ng (updated_reg st) j Hj), (He j Hj).
      unfold pull. rewrite Ha, Er. reflexivity. }
    assert (EG : (1 + mach_eps) * QG v (df ng b) = sumn p (fun j => v j *
      sumn n (fun i => wtv d i * (av_of FLinear (lpv d b i) + mach_eps) * (lpv d ng i - lpv d b i) * xv d i j))).
    { unfold BG. rewrite (sumn_ext p _ (fun j => sumn n (fun i => wtv d i * (1 + mach_eps) * (lpv d ng i - lpv d b i) * (xv d i j * v j)))).
      - rewrite sumn_swap, <- sumn_scal. apply sumn_ext. intros i Hi. rewrite sumn_scal, df_xu. unfold xu. ring.
      - intros j Hj. rewrite <- sumn_scal. apply sumn_ext. intros i Hi. unfold av_of. cbn. ring. }
    rewrite EG. unfold BL, AdmmLin.ip. rewrite <- !sumn_scal, <- sumn_sub, <- !sumn_add. apply sumn_ext.
    intros j Hj. specialize (E j Hj). unfold df.
    set (q := sumn n _) in *. replace q with (gradv FLinear o d b j - a_rho a * (vg b j - vg (a_dual a) j + vg (a_cum a) j) -
      (l2c o ic j + a_rho a) * (vg ng j - vg b j)) by lra. ring.
  Qed.

  Lemma df_er b c k : df b c k = er b k - er c k.
  Proof. unfold df, LinearFit.er. ring. Qed.
  Lemma QG_df v b c : QG v (df b c) = QG v (er b) - QG v (er c).
  Proof.
    rewrite <- (form_subr p QG (BG_lin n p _ _) (BG_sym n p _ _) (BG_ext n p _ _)).
    rewrite BG_sym, (BG_sym _ _ _ _ v). apply BG_ext. intros. apply df_er.
  Qed.
  Lemma QL_df v b c : QL v (df b c) = QL v (er b) - QL v (er c).
  Proof.
    rewrite <- (form_subr p QL (BL_lin p _) (BL_sym p _) (BL_ext p _)).
    rewrite BL_sym, (BL_sym _ _ v). apply BL_ext. intros. apply df_er.
  Qed.
  Lemma QA_df v b c : QA v (df b c) = QA v (er b) - QA v (er c).
  Proof. unfold BA. rewrite QG_df, QL_df. ring. Qed.

  (** In the form of [admm_decrease]. *)
  Lemma opt_weak st ng a : state_ok o d st -> proposed G solveh d st = Some ng ->
    admm_of (updated_reg st) = Some a ->
    forall v, QA v (er ng) + mach_eps * QG v (fun k => er ng k - er (i_guess st) k) +
              a_rho a * ip v (fun k => er ng k - zf a k) + ip v (yf a) = 0.
  Proof.
    intros Hst Hp Ha v. destruct (newton_weak st ng a Hst Hp Ha) as (_ & K). specialize (K v).
    set (b := i_guess st) in *.
    pose proof (grad_weak b v) as Gw.
    assert (E1 : sumn p (fun j => v j * gradv FLinear o d b j) =
      sumn p (fun j => v j * gradv FLinear o d bs j) - QA v (er b)).
    { transitivity (sumn p (fun j => v j * gradv FLinear o d bs j) +
        sumn p (fun j => v j * (gradv FLinear o d b j - gradv FLinear o d bs j))); [|lra].
      rewrite <- sumn_add. apply sumn_ext. intros; ring. }
    assert (E2 : QG v (fun k => er ng k - er b k) = QG v (df ng b)).
    { rewrite QG_df. apply (form_subr p QG (BG_lin n p _ _) (BG_sym n p _ _) (BG_ext n p _ _)). }
    assert (E3 : a_rho a * ip v (fun k => er ng k - zf a k) + ip v (yf a) =
      a_rho a * ip v (df ng b) + a_rho a * ip v (fun k => vg b k - vg (a_dual a) k + vg (a_cum a) k) -
      sumn p (fun j => v j * gradv FLinear o d bs j)).
    { unfold AdmmLin.ip. rewrite <- !sumn_scal, <- !sumn_add, <- sumn_sub. apply sumn_ext. intros k Hk.
      unfold yf, zf, df, LinearFit.er. ring. }
    rewrite E2. pose proof (QA_df v ng b) as E4. unfold BA in E4 at 1. rewrite E1 in K. lra.
  Qed.

  (** The decrease from one state to the next while the penalty parameter stays the same. *)
  Lemma decrease st ng st' : state_ok o d st -> proposed G solveh d st = Some ng ->
    state_ok o d st' -> i_guess st' = ng -> i_reg st' = updated_reg st ->
    rho_of (updated_reg st') = rho_of (updated_reg st) ->
    forall a' a'', admm_of (updated_reg st) = Some a' -> admm_of (updated_reg st') = Some a'' ->
    U ng a'' + D ng a' a'' <= U (i_guess st) a'.
  Proof.
    intros Hst Hp Hst' Eg Er Erho a' a'' Ha' Ha''.
    destruct (admm_facts st' Hst') as (a & F1 & F2 & F3 & F4 & F5 & F6 & F7 & F8).
    rewrite Er, Ha' in F1. injection F1 as <-. rewrite Ha'' in F2. injection F2 as F2. subst a''.
    rewrite <- Er, F7 in Erho. rewrite F8 in Erho. rewrite Eg in *.
    assert (Lng : length ng = p) by (rewrite <- Eg; apply Hst').
    unfold U, D. rewrite Erho.
    assert (Hcum : forall k, vg (a_cum (update_rho a')) k = vg (a_cum a') k).
    { intros k. pose proof (update_rho_cum a' k F5) as K. rewrite <- prepare_rho with (b := ng), Erho in K.
      rewrite K. field. lra. }
    destruct (dual_sub d o st a' Hst Ha') as (_ & S1).
    destruct (dual_sub d o st' _ Hst' Ha'') as (_ & S2). rewrite Erho in S2.
    apply (admm_decrease n p (wtv d) (xv d) (l2c o ic) wt_nn l2_nn); auto.
    - exact (opt_weak st ng a' Hst Hp Ha').
    - intros k Hk. unfold yf, zf, LinearFit.er. rewrite Erho, (prepare_cum p a' ng k F3 Lng Hk), Hcum. ring.
    - apply sumn_nonneg. intros k Hk. destruct (S2 k Hk) as (A2 & B2). destruct (kkt_sub k Hk) as (A1 & B1).
      unfold yf, zf. rewrite Erho. exact (sub_mono _ _ _ _ _ (l1c_nonneg o ic k) A1 B1 A2 B2).
    - apply sumn_nonneg. intros k Hk. destruct (S2 k Hk) as (A2 & B2). destruct (S1 k Hk) as (A1 & B1).
      pose proof (sub_mono _ _ _ _ _ (l1c_nonneg o ic k) A1 B1 A2 B2) as K.
      unfold yf, zf. rewrite Erho. lra.
  Qed.

  (** The forms are bounded. *)
  Lemma bounded : exists K, 0 <= K /\ forall u, QA u u + 2 * mach_eps * QG u u <= K * ip u u.
  Proof.
    set (X := sumn n (fun i => wtv d i * sumn p (fun k => xv d i k * xv d i k))).
    set (L := sumn p (fun k => l2c o ic k)).
    assert (PX : 0 <= X).
    { apply sumn_nonneg. intros i Hi. apply Rmult_le_pos; [auto|]. apply sumn_nonneg. intros; nra. }
    assert (PL : 0 <= L) by (apply sumn_nonneg; auto).
    assert (BX : forall u, QG u u <= X * ip u u).
    { intros u. unfold BG, X. rewrite <- sumn_scalr. apply sumn_le. intros i Hi.
      rewrite Rmult_assoc. apply Rmult_le_compat_l; [auto|].
      exact (form_cs ip (ip_lin p) (ip_sym p) (ip_nonneg p) (xv d i) u). }
    assert (BLb : forall u, QL u u <= L * ip u u).
    { intros u. unfold BL, L, AdmmLin.ip. rewrite <- sumn_scal. apply sumn_le. intros k Hk.
      apply Rmult_le_compat_r; [nra|]. exact (sumn_ge_term p (fun k => l2c o ic k) k l2_nn Hk). }
    exists (X + L + 2 * mach_eps * X). split.
    - assert (0 <= 2 * mach_eps * X) by (apply Rmult_le_pos; lra). lra.
    - intros u. unfold BA. specialize (BX u). specialize (BLb u).
      assert (2 * mach_eps * QG u u <= 2 * mach_eps * (X * ip u u)) by (apply Rmult_le_compat_l; lra). lra.
  Qed.

  (** The objective that the iteration compares. *)
  Lemma irls_like_spec st a b : state_ok o d st -> admm_of (updated_reg st) = Some a -> length b = p ->
    reg_irls_like (updated_reg st) b =
    - / 2 * (a_rho a * sumn p (fun k => (vg b k - vg (a_dual a) k + vg (a_cum a) k) ^ 2)) -
    / 2 * sumn p (fun k => l2c o ic k * (vg b k * vg b k)).
  Proof.
    intros Hst Ha Hb. destruct (updated_ok d o st Hst) as (Hr & Hok). destruct (Hok a Ha) as ((K1 & K2 & K3) & _).
    assert (A : admm_aug a b = - / 2 * (a_rho a * sumn p (fun k => (vg b k - vg (a_dual a) k + vg (a_cum a) k) ^ 2))).
    { unfold admm_aug. rewrite vsum_sumn, map_length.
      assert (L : length (vadd (vsub b (a_dual a)) (a_cum a)) = p) by auto using vadd_length, vsub_length.
      rewrite L. rops. rewrite (sumn_ext p _ (fun k => (vg b k - vg (a_dual a) k + vg (a_cum a) k) ^ 2)); [field|].
      intros k Hk. rewrite vg_map by now rewrite L.
      rewrite (vg_add2 _ _ p) by auto using vsub_length. rewrite (vg_sub2 _ _ p) by auto. ring. }
    destruct (updated_reg st) as [|l2|a0|l2 a0]; cbn [admm_of reg_is reg_irls_like] in *; try discriminate; injection Ha as ->.
    - rewrite A. rewrite (sumn_zero' p (fun k => l2c o ic k * _)); [ring|].
      intros k Hk. rewrite l2c_off by apply Hr. ring.
    - destruct Hr as (Q1 & Q2 & Q3 & ->). rewrite A, (l2_sum_spec _ _ p) by auto using coefs_length. rops.
      assert (E : sumn p (fun k => vg (coefs (o_l2 o) p ic) k * (vg b k * vg b k)) =
                  sumn p (fun k => l2c o ic k * (vg b k * vg b k))).
      { apply sumn_ext. intros k Hk. now rewrite vg_coefs_l2. }
      rewrite E. field.
  Qed.

  Lemma obj_gain st ng a : state_ok o d st -> proposed G solveh d st = Some ng ->
    admm_of (updated_reg st) = Some a ->
    let u := df ng (i_guess st) in
    (log_like G d ng + reg_irls_like (updated_reg st) ng) -
    (log_like G d (i_guess st) + reg_irls_like (updated_reg st) (i_guess st)) =
    / 2 * QA u u + mach_eps * QG u u + / 2 * (a_rho a * ip u u).
  Proof.
    intros Hst Hp Ha. cbv zeta. destruct (newton_weak st ng a Hst Hp Ha) as (Lng & K).
    assert (Lb : length (i_guess st) = p) by apply Hst.
    rewrite !(irls_like_spec st a) by assumption. rewrite !log_like_spec by assumption.
    specialize (K (df ng (i_guess st))). set (b := i_guess st) in *. set (u := df ng b) in *.
    assert (L : llv FLinear d ng - llv FLinear d b =
      sumn n (fun i => wtv d i * (yv d i - lpv d b i) * (lpv d ng i - lpv d b i)) - / 2 * QG u u).
    { unfold llv, BG. rewrite <- sumn_scal, <- !sumn_sub. apply sumn_ext. intros i Hi. unfold u. rewrite df_xu.
      unfold ll1. cbn. field. }
    assert (E : sumn p (fun j => u j * gradv FLinear o d b j) =
      sumn n (fun i => wtv d i * (yv d i - lpv d b i) * (lpv d ng i - lpv d b i)) -
      sumn p (fun k => l2c o ic k * vg b k * u k)).
    { unfold gradv.
      rewrite (sumn_ext p _ (fun k => sumn n (fun i => wtv d i * (yv d i - lpv d b i) * (xv d i k * u k)) -
         l2c o ic k * vg b k * u k)).
      - rewrite sumn_sub. f_equal. rewrite sumn_swap. apply sumn_ext. intros i Hi.
        rewrite sumn_scal. fold (xu p (xv d) u i). unfold u. now rewrite df_xu.
      - intros k Hk. rewrite Rmult_minus_distr_l, <- sumn_scal. f_equal; [|ring]. apply sumn_ext. intros i Hi.
        unfold es_of. cbn. ring. }
    assert (P1 : sumn p (fun k => l2c o ic k * (vg ng k * vg ng k)) - sumn p (fun k => l2c o ic k * (vg b k * vg b k)) =
      2 * sumn p (fun k => l2c o ic k * vg b k * u k) + QL u u).
    { unfold BL. rewrite <- sumn_scal, <- sumn_sub, <- sumn_add. apply sumn_ext. intros k Hk. unfold u, df. ring. }
    assert (P2 : sumn p (fun k => (vg ng k - vg (a_dual a) k + vg (a_cum a) k) ^ 2) -
                 sumn p (fun k => (vg b k - vg (a_dual a) k + vg (a_cum a) k) ^ 2) =
      2 * ip u (fun k => vg b k - vg (a_dual a) k + vg (a_cum a) k) + ip u u).
    { unfold AdmmLin.ip. rewrite <- sumn_scal, <- sumn_sub, <- sumn_add. apply sumn_ext. intros k Hk. unfold u, df. ring. }
    unfold BA.
    set (s1 := sumn p (fun k => (vg ng k - vg (a_dual a) k + vg (a_cum a) k) ^ 2)) in *.
    set (s2 := sumn p (fun k => (vg b k - vg (a_dual a) k + vg (a_cum a) k) ^ 2)) in *.
    assert (P3 : a_rho a * s1 = a_rho a * s2 + a_rho a * (2 * ip u (fun k => vg b k - vg (a_dual a) k + vg (a_cum a) k) + ip u u)).
    { rewrite <- P2. ring. }
    rewrite P3. lra.
  Qed.

  (** The solver answers. *)
  Lemma l1_proposed st : state_ok o d st -> exists ng, proposed G solveh d st = Some ng.
  Proof.
    intros Hst. destruct (updated_ok d o st Hst) as (Hr & Hok).
    destruct (admm_facts st Hst) as (a & _ & F2 & _ & _ & _ & F6 & _ & F8). destruct Hst as (Hb & _ & _).
    destruct (irls_mat_vec_spec FLinear d Hwf (i_guess st) Hb) as (M1 & V1 & M2 & _).
    set (a' := admm_prepare a (i_guess st)) in *. set (rho := a_rho a') in *.
    assert (E : forall j k, (j < p)%nat -> (k < p)%nat ->
      mg (reg_irls_mat (updated_reg st) (fst (irls_mat_vec G d (i_guess st)))) j k =
      (1 + mach_eps) * sumn n (fun i => wtv d i * xv d i j * xv d i k) + delta j k * l2c o ic k + delta j k * rho).
    { intros j k Hj Hk. rewrite (reg_irls_mat_spec o ic p) by auto. rewrite M2, F8 by assumption.
      rewrite <- sumn_scal. rewrite Rmult_plus_distr_l, <- Rplus_assoc. f_equal. f_equal.
      apply sumn_ext. intros i Hi. unfold av_of. cbn. ring. }
    apply (Hsd p); auto.
    - now apply reg_irls_mat_shape.
    - destruct (Hok a' F2) as ((K1 & K2 & K3) & _).
      destruct (updated_reg st); cbn in F2; try discriminate; injection F2 as ->; cbn [reg_irls_vec];
        apply vadd_length; auto; unfold vscale; rewrite map_length; now apply vsub_length.
    - intros j k Hj Hk. rewrite !E by assumption. unfold delta. rewrite (Nat.eqb_sym k j).
      rewrite (sumn_ext n (fun i => wtv d i * xv d i k * xv d i j) (fun i => wtv d i * xv d i j * xv d i k)) by (intros; ring).
      destruct (Nat.eqb_spec j k); [subst; ring|ring].
    - intros u (k & Hk & Hu).
      rewrite (sumn_ext p _ (fun j => u j * sumn p (fun k => ((1 + mach_eps) *
        sumn n (fun i => wtv d i * xv d i j * xv d i k) + delta j k * l2c o ic k + delta j k * rho) * u k))).
      2: { intros j Hj. rewrite <- sumn_scal. apply sumn_ext. intros k0 Hk0. rewrite E by assumption. ring. }
      assert (K : sumn p (fun j => u j * sumn p (fun k => ((1 + mach_eps) *
        sumn n (fun i => wtv d i * xv d i j * xv d i k) + delta j k * l2c o ic k + delta j k * rho) * u k)) =
        mach_eps * QG u u + QA u u + rho * ip u u).
      { unfold BA. rewrite G_form, L_form. unfold AdmmLin.ip.
        rewrite <- !sumn_scal, <- !sumn_add. apply sumn_ext. intros j Hj.
        rewrite (sumn_ext p (fun k => ((1 + mach_eps) * _ + _ + _) * u k)
          (fun k => (1 + mach_eps) * (sumn n (fun i => wtv d i * xv d i j * xv d i k) * u k) +
                    delta j k * l2c o ic k * u k + delta j k * (rho * u k))) by (intros; ring).
        rewrite !sumn_add, sumn_scal, sumn_delta_l by assumption. ring. }
      rewrite K. pose proof (BG_nonneg n p (wtv d) (xv d) wt_nn u) as P1.
      pose proof (BA_nonneg n p (wtv d) (xv d) (l2c o ic) wt_nn l2_nn u) as P2.
      assert (P3 : 0 < ip u u).
      { apply Rlt_le_trans with (u k * u k); [nra|].
        apply (sumn_ge_term p (fun k => u k * u k) k); [intros; nra|assumption]. }
      assert (0 <= mach_eps * QG u u) by now apply Rmult_le_pos.
      assert (0 < rho * ip u u) by now apply Rmult_lt_0_compat. lra.
  Qed.

  Section Loop.
    Variables (sfuel : nat) (K : R).
    Hypothesis Hn : (0 < n)%nat.
    Hypothesis Hp : (0 < p)%nat.
    Hypothesis Htol : 0 < o_tol o.
    Hypothesis HK0 : 0 <= K.
    Hypothesis HK : forall u, QA u u + 2 * mach_eps * QG u u <= K * ip u u.
    Hypothesis Hinit : match o_init o with Some b => length b = p | None => True end.
    Notation Run := (Run G solveh sfuel d o).
    Notation next := (next G solveh sfuel d o).
    Notation s0 := (start_guess G solveh d o).

    Definition Us (st : irls R) : R :=
      match admm_of (updated_reg st) with Some a => U (i_guess st) a | None => 0 end.
    Definition Ds (st : irls R) : R :=
      match admm_of (i_reg st), admm_of (updated_reg st) with
      | Some a, Some a' => D (i_guess st) a a' | _, _ => 0 end.
    (** A lower bound of two consecutive decreases while the iteration is not over. *)
    Definition least (rho : R) : R :=
      Rmin (Rmin (rho * (sqrt (INR p) * o_tol o)) (sqrt (INR p) * o_tol o / rho))
           (Rmin (rho / 3 * (INR p * o_tol o * o_tol o)) (rho / 3 * (2 * (o_tol o * INR n) / (K + rho)))).

    Lemma least_pos rho : 0 < rho -> 0 < least rho.
    Proof.
      intros H. apply lt_0_INR in Hn. apply lt_0_INR in Hp. pose proof (sqrt_lt_R0 _ Hp) as Hq.
      assert (Hi : 0 < / rho) by now apply Rinv_0_lt_compat.
      assert (0 < sqrt (INR p) * o_tol o) by now apply Rmult_lt_0_compat.
      assert (0 < INR p * o_tol o * o_tol o) by (repeat apply Rmult_lt_0_compat; auto).
      assert (0 < o_tol o * INR n) by now apply Rmult_lt_0_compat.
      assert (0 < / (K + rho)) by (apply Rinv_0_lt_compat; lra).
      unfold least. repeat apply Rmin_glb_lt.
      - now apply Rmult_lt_0_compat.
      - now apply Rmult_lt_0_compat.
      - apply Rmult_lt_0_compat; lra.
      - apply Rmult_lt_0_compat; [lra|]. apply Rmult_lt_0_compat; lra.
    Qed.

    Lemma len_exact : solver_len solveh.
    Proof. intros A b x H. now destruct (Hse _ _ _ H). Qed.
    Lemma RunL_ok l st : Run l st -> state_ok o d st.
    Proof. intros HR. exact (Run_state_ok _ _ _ _ _ _ _ Hwf len_exact HR). Qed.

    Lemma ip_zero u : ip u u = 0 -> forall k, (k < p)%nat -> u k = 0.
    Proof.
      intros H k Hk. pose proof (sumn_ge_term p (fun k => u k * u k) k) as T. cbv beta in T.
      unfold AdmmLin.ip in H. rewrite H in T. specialize (T (fun i _ => ltac:(nra)) Hk). nra.
    Qed.

    Lemma gain_bound u rho : 0 < rho ->
      / 2 * QA u u + mach_eps * QG u u + / 2 * (rho * ip u u) <= / 2 * (K + rho) * ip u u.
    Proof. intros H. specialize (HK u). lra. Qed.

    (** A call of [next] that is not preceded by convergence. *)
    Lemma next_l1 l st : Run l st -> i_done st = false ->
      exists ng a, proposed G solveh d st = Some ng /\ length ng = p /\ admm_of (updated_reg st) = Some a /\
        ((ng = i_guess st /\ snd (next st) = IEnd) \/
         exists dn, next st = step_with o (mk st (updated_reg st) dn) (updated_reg st) dn ng (log_like G d ng) /\
           (dn = false -> sqrt (INR p) * o_tol o <= a_r_sq a \/ sqrt (INR p) * o_tol o <= a_s_sq a \/
              INR p * o_tol o * o_tol o <= ip (df ng (i_guess st)) (df ng (i_guess st)) \/
              2 * (o_tol o * INR n) / (K + a_rho a) <= ip (df ng (i_guess st)) (df ng (i_guess st)))).
    Proof.
      intros HR Hd. pose proof (RunL_ok _ _ HR) as Hst.
      destruct (l1_proposed st Hst) as (ng & Hng).
      destruct (admm_facts st Hst) as (a0 & F1 & F2 & F3 & F4 & F5 & F6 & F7 & F8).
      set (a := admm_prepare a0 (i_guess st)) in *.
      destruct (newton_weak st ng a Hst Hng F2) as (Lng & _).
      pose proof (obj_gain st ng a Hst Hng F2) as Hgain. cbv zeta in Hgain.
      assert (Lb : length (i_guess st) = p) by apply Hst.
      assert (La : length (a_dual a) = p) by (destruct (prepare_ok p a0 _ F3 Lb) as (_ & Q & _); exact Q).
      exists ng, a. refine (conj Hng (conj Lng (conj F2 _))).
      destruct (Run_inv _ _ _ _ _ _ _ HR) as (_ & _ & _ & I4 & _).
      unfold Irls.next. rewrite Hd.
      destruct (irls_mat_vec G d (i_guess st)) as [m v] eqn:Em.
      unfold reg_next_guess. unfold proposed in Hng. rewrite Em in Hng. cbn [fst snd] in Hng.
      unfold updated_reg in Hng, F2, Hgain |- *.
      set (r := reg_prepare (i_reg st) (i_guess st)) in *. rewrite Hng.
      destruct (reg_terminate_ok r (o_tol o)) eqn:Et; cbn [negb].
      2:{ right. exists false. split; [reflexivity|]. intros _.
          assert (T : fltb (a_r_sq a) (fmul (fsqrt_nat p) (o_tol o)) &&
                      fltb (a_s_sq a) (fmul (fsqrt_nat p) (o_tol o)) = false).
          { unfold reg_terminate_ok in Et. destruct r; cbn in F2; try discriminate; injection F2 as ->;
              cbv zeta in Et; rewrite La in Et; exact Et. }
          revert T. rops. unfold Rltb. destruct (Rlt_dec _ _) as [A|A]; [|intros _; left; lra].
          destruct (Rlt_dec _ _) as [B|B]; [discriminate|]. intros _. right. left. lra. }
      destruct (veqb ng (i_guess st)) eqn:Ev.
      { left. split; [now apply veqb_eq|reflexivity]. }
      right.
      assert (Hne : ng <> i_guess st) by (intros ->; now rewrite veqb_refl in Ev).
      set (u := df ng (i_guess st)) in *.
      assert (Hz : 0 < ip u u).
      { pose proof (ip_nonneg p u). assert (ip u u <> 0); [|lra]. intros Z. apply Hne.
        apply (vec_ext_n _ _ p); auto. intros k Hk. pose proof (ip_zero _ Z k Hk) as Q. unfold u, df in Q. lra. }
      pose proof (BA_nonneg n p (wtv d) (xv d) (l2c o ic) wt_nn l2_nn u) as PA.
      pose proof (BG_nonneg n p (wtv d) (xv d) wt_nn u) as PG.
      assert (0 <= mach_eps * QG u u) by now apply Rmult_le_pos.
      assert (0 < a_rho a * ip u u) by now apply Rmult_lt_0_compat.
      assert (O2 : i_last_like st = log_like G d (i_guess st)) by (rewrite I4; reflexivity).
      assert (Hgt : fgtb (fadd (log_like G d ng) (reg_irls_like r ng))
                         (fadd (i_last_like st) (reg_irls_like r (i_guess st))) = true).
      { unfold fgtb. rops. rewrite O2. unfold Rltb. destruct (Rlt_dec _ _) as [|Q]; [reflexivity|]. exfalso.
        apply Q. lra. }
      rewrite Hgt.
      match goal with |- context [if ?A && ?B then true else ?q] =>
        set (cA := A); set (cB := B); set (dn := if cA && cB then true else q) end.
      exists dn. split; [reflexivity|]. intros Edn.
      assert (T : cA = false \/ cB = false).
      { unfold dn in Edn. destruct cA; [|now left]. destruct cB; [discriminate|now right]. }
      right. right. destruct T as [T|T]; [right|left].
      - revert T. unfold cA, small_delta. rops. rewrite O2. unfold Rleb.
        destruct (Rle_dec _ _) as [|Q]; [discriminate|]. intros _.
        change (INR (length (d_y d))) with (INR n) in Q.
        pose proof (gain_bound u (a_rho a) F6) as B.
        rewrite Rabs_pos_eq in Q by lra. apply Rnot_le_lt in Q.
        apply Rmult_le_reg_r with (K + a_rho a); [lra|]. unfold Rdiv.
        rewrite Rmult_assoc, Rinv_l by lra. lra.
      - revert T. unfold cB, small_delta_vec.
        assert (Ld : length (vsub ng (i_guess st)) = p) by now apply vsub_length.
        rewrite Ld. rops. unfold Rleb. destruct (Rle_dec _ _) as [|Q]; [discriminate|]. intros _.
        apply Rnot_le_lt in Q.
        assert (S1 : vsum (map (fun x => x * x) (vsub ng (i_guess st))) = ip u u).
        { rewrite vsum_sumn, map_length, Ld. apply sumn_ext. intros k Hk. rewrite vg_map by lia.
          rewrite (vg_sub2 _ _ p) by auto. unfold u, df. ring. }
        rops. rewrite S1 in Q.
        assert (S2 : 0 <= vsum (map (fun x => x * x) ng)).
        { rewrite vsum_sumn. apply sumn_nonneg. intros k Hk. rewrite map_length in Hk.
          rewrite vg_map by assumption. nra. }
        assert (0 <= vsum (map (fun x => x * x) ng) * o_tol o * o_tol o)
          by (repeat apply Rmult_le_pos; lra).
        lra.
    Qed.

    Lemma step_l1 l st st' s : Run l st -> next st = (st', IStep s) ->
      exists ng a, proposed G solveh d st = Some ng /\ admm_of (updated_reg st) = Some a /\
        i_guess st' = ng /\ i_reg st' = updated_reg st /\
        (i_done st' = false -> sqrt (INR p) * o_tol o <= a_r_sq a \/ sqrt (INR p) * o_tol o <= a_s_sq a \/
              INR p * o_tol o * o_tol o <= ip (df ng (i_guess st)) (df ng (i_guess st)) \/
              2 * (o_tol o * INR n) / (K + a_rho a) <= ip (df ng (i_guess st)) (df ng (i_guess st))).
    Proof.
      intros HR Hnx. destruct (next_step _ _ _ _ _ _ _ _ Hnx) as (Hd & _).
      destruct (next_l1 l st HR Hd) as (ng & a & K1 & K2 & K3 & [[_ K4]|(dn & K4 & K5)]).
      { rewrite Hnx in K4. discriminate. }
      rewrite Hnx in K4. symmetry in K4. apply step_with_inv in K4 as (-> & _). cbn [i_guess i_done i_reg].
      exists ng, a. auto.
    Qed.

    Lemma Us_nonneg st : state_ok o d st -> 0 <= Us st.
    Proof.
      intros Hst. destruct (admm_facts st Hst) as (a & F1 & F2 & _ & _ & _ & F6 & _).
      unfold Us. rewrite F2. now apply U_nonneg.
    Qed.
    Lemma Ds_nonneg st : state_ok o d st -> 0 <= Ds st.
    Proof.
      intros Hst. destruct (admm_facts st Hst) as (a & F1 & F2 & _ & _ & _ & F6 & _).
      unfold Ds. rewrite F1, F2. now apply D_nonneg.
    Qed.

    Lemma Us_decrease l st st' s : Run l st -> next st = (st', IStep s) ->
      rho_of (updated_reg st') = rho_of (i_reg st') -> Us st' + Ds st' <= Us st.
    Proof.
      intros HR Hnx Hrho. destruct (step_l1 l st st' s HR Hnx) as (ng & a & K1 & K2 & K3 & K4 & _).
      assert (Hst : state_ok o d st) by exact (RunL_ok _ _ HR).
      assert (Hst' : state_ok o d st') by exact (RunL_ok _ _ (Run_step _ _ _ _ _ _ _ _ _ HR Hnx)).
      destruct (admm_facts st' Hst') as (a1 & F1 & F2 & _).
      unfold Us, Ds. rewrite F1, F2, K2. rewrite K4, K2 in F1. injection F1 as <-.
      rewrite K4 in Hrho. rewrite K3 in F2 |- *.
      exact (decrease st ng st' Hst K1 Hst' K3 K4 Hrho a _ K2 F2).
    Qed.

    Lemma Ds_rs st a a' : state_ok o d st -> admm_of (i_reg st) = Some a -> admm_of (updated_reg st) = Some a' ->
      Ds st = a_rho a' * a_r_sq a' + a_s_sq a' / a_rho a' /\ 0 <= a_r_sq a' /\ 0 <= a_s_sq a' /\
      a_r_sq a' = ip (fun k => er (i_guess st) k - zf a' k) (fun k => er (i_guess st) k - zf a' k) /\
      a_s_sq a' / a_rho a' = a_rho a' * ip (fun k => zf a' k - zf a k) (fun k => zf a' k - zf a k).
    Proof.
      intros Hst Ha Ha'. destruct (admm_facts st Hst) as (a1 & F1 & F2 & F3 & F4 & F5 & F6 & F7 & F8).
      rewrite Ha in F1. injection F1 as <-. rewrite Ha' in F2. injection F2 as F2. rewrite <- F2 in *.
      assert (Lb : length (i_guess st) = p) by apply Hst.
      assert (R1 : a_r_sq a' = ip (fun k => er (i_guess st) k - zf a' k) (fun k => er (i_guess st) k - zf a' k)).
      { rewrite F2 at 1. rewrite (prepare_r_sq p) by assumption. apply sumn_ext. intros k Hk. rewrite <- F2.
        unfold LinearFit.er, zf. ring. }
      assert (R2 : a_s_sq a' = a_rho a' * a_rho a' * ip (fun k => zf a' k - zf a k) (fun k => zf a' k - zf a k)).
      { rewrite F2 at 1. rewrite (prepare_s_sq p) by assumption. unfold AdmmLin.ip. rewrite <- sumn_scal.
        apply sumn_ext. intros k Hk. rewrite <- F2. unfold zf. ring. }
      assert (R3 : a_s_sq a' / a_rho a' = a_rho a' * ip (fun k => zf a' k - zf a k) (fun k => zf a' k - zf a k)).
      { rewrite R2. field. lra. }
      unfold Ds. rewrite Ha, Ha'. unfold D. rewrite R1, R3.
      pose proof (ip_nonneg p (fun k => er (i_guess st) k - zf a' k)) as N1.
      pose proof (ip_nonneg p (fun k => zf a' k - zf a k)) as N2.
      repeat split; auto. rewrite R2. apply Rmult_le_pos; [nra|assumption].
    Qed.

    (** Three vectors. *)
    Lemma ip_three u v z : ip (fun k => u k + v k - z k) (fun k => u k + v k - z k) <= 3 * (ip u u + ip v v + ip z z).
    Proof.
      unfold AdmmLin.ip. rewrite <- !sumn_add, <- sumn_scal. apply sumn_le. intros k Hk.
      pose proof (Rle_0_sqr (u k - v k)) as A. pose proof (Rle_0_sqr (u k + z k)) as B.
      pose proof (Rle_0_sqr (v k + z k)) as C. unfold Rsqr in *. lra.
    Qed.

    Lemma two_decreases l st st' s : Run l st -> next st = (st', IStep s) -> i_done st' = false ->
      rho_of (updated_reg st') = rho_of (i_reg st') ->
      least (rho_of (updated_reg st)) <= Ds st + Ds st'.
    Proof.
      intros HR Hnx Hd Hrho. destruct (step_l1 l st st' s HR Hnx) as (ng & a & K1 & K2 & K3 & K4 & K5).
      assert (Hst : state_ok o d st) by exact (RunL_ok _ _ HR).
      assert (Hst' : state_ok o d st') by exact (RunL_ok _ _ (Run_step _ _ _ _ _ _ _ _ _ HR Hnx)).
      destruct (admm_facts st Hst) as (a0 & F1 & F2 & F3 & F4 & F5 & F6 & F7 & F8).
      destruct (admm_facts st' Hst') as (a1 & G1 & G2 & G3 & G4 & G5 & G6 & G7 & G8).
      rewrite K4, K2 in G1. injection G1 as <-. rewrite K2 in F2. injection F2 as F2. rewrite <- F2 in *.
      set (a2 := admm_prepare a (i_guess st')) in *.
      assert (E2 : a_rho a2 = a_rho a) by (rewrite <- G8, Hrho; exact G7).
      destruct (Ds_rs st a0 a Hst F1 K2) as (D1 & P1 & P2 & R1 & R2).
      destruct (Ds_rs st' a a2 Hst' ltac:(now rewrite K4) G2) as (D2 & P3 & P4 & R3 & R4).
      rewrite F8. set (rho := a_rho a) in *. rewrite E2 in *. rewrite K3 in *.
      assert (Hi : 0 < / rho) by now apply Rinv_0_lt_compat.
      assert (N1 : 0 <= rho * a_r_sq a) by (apply Rmult_le_pos; lra).
      assert (N2 : 0 <= a_s_sq a / rho) by (apply Rmult_le_pos; lra).
      assert (N3 : 0 <= rho * a_r_sq a2) by (apply Rmult_le_pos; lra).
      assert (N4 : 0 <= a_s_sq a2 / rho) by (apply Rmult_le_pos; lra).
      assert (T : rho / 3 * ip (df ng (i_guess st)) (df ng (i_guess st)) <= Ds st + Ds st').
      { assert (T1 : ip (df ng (i_guess st)) (df ng (i_guess st)) <=
          3 * (a_r_sq a2 + ip (fun k => zf a2 k - zf a k) (fun k => zf a2 k - zf a k) + a_r_sq a)).
        { rewrite R1, R3.
          eapply Rle_trans; [|apply ip_three]. right. apply sumn_ext. intros k Hk.
          unfold df, zf, LinearFit.er. ring. }
        rewrite D1, D2, R4. apply Rmult_le_compat_l with (r := rho / 3) in T1; [|lra]. lra. }
      pose proof (Rmin_l (Rmin (rho * (sqrt (INR p) * o_tol o)) (sqrt (INR p) * o_tol o / rho))
           (Rmin (rho / 3 * (INR p * o_tol o * o_tol o)) (rho / 3 * (2 * (o_tol o * INR n) / (K + rho))))) as M1.
      pose proof (Rmin_r (Rmin (rho * (sqrt (INR p) * o_tol o)) (sqrt (INR p) * o_tol o / rho))
           (Rmin (rho / 3 * (INR p * o_tol o * o_tol o)) (rho / 3 * (2 * (o_tol o * INR n) / (K + rho))))) as M2.
      pose proof (Rmin_l (rho * (sqrt (INR p) * o_tol o)) (sqrt (INR p) * o_tol o / rho)) as M3.
      pose proof (Rmin_r (rho * (sqrt (INR p) * o_tol o)) (sqrt (INR p) * o_tol o / rho)) as M4.
      pose proof (Rmin_l (rho / 3 * (INR p * o_tol o * o_tol o)) (rho / 3 * (2 * (o_tol o * INR n) / (K + rho)))) as M5.
      pose proof (Rmin_r (rho / 3 * (INR p * o_tol o * o_tol o)) (rho / 3 * (2 * (o_tol o * INR n) / (K + rho)))) as M6.
      fold (least rho) in M1, M2.
      destruct (K5 Hd) as [C|[C|[C|C]]].
      - apply Rmult_le_compat_l with (r := rho) in C; lra.
      - apply Rmult_le_compat_r with (r := / rho) in C; [|lra]. fold (a_s_sq a / rho) in C. unfold Rdiv in *. lra.
      - apply Rmult_le_compat_l with (r := rho / 3) in C; lra.
      - apply Rmult_le_compat_l with (r := rho / 3) in C; lra.
    Qed.

    (** While the penalty parameter stays the same, the run is bounded. *)
    Lemma phase N0 :
      (forall l st, Run l st -> (N0 <= length l)%nat -> rho_of (updated_reg st) = rho_of (i_reg st)) ->
      forall l st, Run l st -> forall j, length l = (N0 + S j)%nat -> i_done st = false ->
      exists l0 st0, Run l0 st0 /\ length l0 = N0 /\ rho_of (updated_reg st) = rho_of (updated_reg st0) /\
        2 * Us st + Ds st + INR j * least (rho_of (updated_reg st0)) <= 2 * Us st0.
    Proof.
      intros Hc l st HR. induction HR as [st Hnew|l st s st' HR IH Hnx]; intros j Hj Hd.
      { cbn in Hj. lia. }
      rewrite app_length in Hj. cbn [length] in Hj.
      assert (HR' : Run (l ++ [s]) st') by exact (Run_step _ _ _ _ _ _ _ _ _ HR Hnx).
      assert (Hrho : rho_of (updated_reg st') = rho_of (i_reg st')).
      { apply (Hc (l ++ [s])); [assumption|]. rewrite app_length. cbn [length]. lia. }
      assert (Hrho' : rho_of (updated_reg st') = rho_of (updated_reg st)).
      { rewrite Hrho. destruct (step_l1 l st st' s HR Hnx) as (_ & _ & _ & _ & _ & -> & _). reflexivity. }
      pose proof (Us_decrease l st st' s HR Hnx Hrho) as Hdec.
      pose proof (Ds_nonneg st' (RunL_ok _ _ HR')) as HD.
      destruct j as [|j].
      - exists l, st. repeat split; auto; [lia|]. cbn [INR]. lra.
      - destruct (next_step _ _ _ _ _ _ _ _ Hnx) as (Hd0 & _).
        destruct (IH j ltac:(lia) Hd0) as (l0 & st0 & Q1 & Q2 & Q3 & Q4).
        exists l0, st0. refine (conj Q1 (conj Q2 (conj (eq_trans Hrho' Q3) _))).
        pose proof (two_decreases l st st' s HR Hnx Hd Hrho) as T. rewrite Q3 in T.
        rewrite S_INR. lra.
    Qed.

    Lemma startL_length : length s0 = p.
    Proof.
      unfold start_guess. destruct (o_init o) as [b|]; [now apply transform_beta_length|].
      unfold init_guess. destruct (solveh _ _) as [b|] eqn:E.
      - destruct (Hse _ _ _ E) as (-> & _). unfold npar. rewrite <- (nrows_x_conj d). unfold nrows, mat_mul. cbn [mrows]. now rewrite map_length.
      - apply repeat_length.
    Qed.

    (** A fit fails only by reaching the iteration limit. *)
    Lemma l1_ok : (forall l st, Run l st -> i_done st = false -> (length l < o_max_iter o)%nat) ->
      exists ft, regression G solveh sfuel d o = Ok ft.
    Proof.
      intros HE. destruct (regression G solveh sfuel d o) as [ft|er0| |] eqn:ER; [eauto| | |]; exfalso.
      - apply err_run in ER as (l & st & st' & HR & Hnx).
        assert (Hd : i_done st = false).
        { unfold Irls.next in Hnx. destruct (i_done st); [discriminate|reflexivity]. }
        destruct (next_l1 l st HR Hd) as (ng & a & _ & _ & _ & [[_ K4]|(dn & K4 & _)]).
        { rewrite Hnx in K4. discriminate. }
        rewrite Hnx in K4. symmetry in K4. apply step_with_inv in K4 as (_ & [[_ Q]|[Q _]]); [discriminate|].
        destruct (Run_inv _ _ _ _ _ _ _ HR) as (I1 & _). cbn [mk i_n_iter] in Q. rewrite I1 in Q.
        specialize (HE l st HR Hd). lia.
      - unfold regression, optimize in ER.
        replace (match o_init o with Some b => negb (length b =? mcols (d_x d)) | None => false end)
          with false in ER.
        2:{ destruct (o_init o); [|reflexivity]. unfold npar in Hinit. now rewrite Hinit, Nat.eqb_refl. }
        unfold irls_new in ER.
        destruct (get_reg_some o (mcols (d_x d)) ic (fun _ => Hp)) as (r & Er). rewrite Er in ER.
        rewrite startL_length in ER. unfold npar in ER at 1. rewrite Nat.eqb_refl in ER. cbn [bind] in ER.
        destruct (drive _ _ _ _ _ _ _ _) as [[st b]| | |] eqn:Ed; try discriminate ER.
        now apply drive_not_panic in Ed.
      - unfold regression in ER.
        destruct (optimize G solveh sfuel d o) as [[opt st]| | |] eqn:E; try discriminate ER.
        apply optimize_diverge in E as (st0 & l & st1 & st' & Hnew & HS & HN).
        assert (HR : Run l st1) by now apply (Run_Steps _ _ _ _ _ st0).
        assert (Hd : i_done st1 = false).
        { unfold Irls.next in HN. destruct (i_done st1); [discriminate|reflexivity]. }
        destruct (next_l1 l st1 HR Hd) as (ng & a & _ & _ & _ & [[_ K4]|(dn & K4 & _)]).
        { rewrite HN in K4. discriminate. }
        rewrite HN in K4. symmetry in K4. apply step_with_inv in K4 as (_ & [[_ Q]|[_ Q]]); discriminate Q.
    Qed.
  End Loop.
End Lasso.

(** ** Runs with different iteration limits *)
Section Limit.
  Context {F : Type} {Ops : FloatOps F}.
  Variables (g : Glm F) (solveh : mat F -> list F -> option (list F)) (sfuel : nat) (d : dataset F).

  Lemma step_with_limit o o' st r dn b l st' s :
    step_with o st r dn b l = (st', IStep s) -> (S (i_n_iter st) <= o_max_iter o')%nat ->
    step_with o' st r dn b l = (st', IStep s).
  Proof.
    unfold step_with. intros H Hm. destruct (o_max_iter o <? S (i_n_iter st)); [discriminate|].
    destruct (Nat.ltb_spec (o_max_iter o') (S (i_n_iter st))); [lia|exact H].
  Qed.
  Lemma next_limit o m st st' s : next g solveh sfuel d o st = (st', IStep s) -> (S (i_n_iter st) <= m)%nat ->
    next g solveh sfuel d (apply_opt o (SetMaxIter m)) st = (st', IStep s).
  Proof.
    intros H Hm. revert H. unfold next.
    change (o_tol (apply_opt o (SetMaxIter m))) with (o_tol o).
    destruct (i_done st); [discriminate|]. destruct (irls_mat_vec g d (i_guess st)) as [A v].
    destruct (reg_next_guess solveh (i_reg st) (i_guess st) v A) as [r [ng|]]; [|discriminate].
    cbv zeta. destruct (negb _).
    { intros H. eapply step_with_limit; [exact H|exact Hm]. }
    destruct (veqb _ _); [discriminate|]. destruct (fgtb _ _).
    { intros H. eapply step_with_limit; [exact H|exact Hm]. }
    destruct (step_scale _ _ _) as [x|]; [|discriminate]. destruct (feqb _ _); [discriminate|].
    intros H. eapply step_with_limit; [exact H|exact Hm].
  Qed.
  Lemma Run_limit o m m' l st : Run g solveh sfuel d (apply_opt o (SetMaxIter m)) l st -> (length l <= m')%nat ->
    Run g solveh sfuel d (apply_opt o (SetMaxIter m')) l st.
  Proof.
    intros HR. induction HR as [st Hnew|l st s st' HR IH Hnx]; intros Hm.
    - apply Run_start. exact Hnew.
    - rewrite app_length in Hm. cbn [length] in Hm. apply (Run_step _ _ _ _ _ _ st); [apply IH; lia|].
      destruct (Run_inv _ _ _ _ _ _ _ HR) as (I1 & _).
      exact (next_limit (apply_opt o (SetMaxIter m)) m' st st' s Hnx ltac:(rewrite I1; lia)).
  Qed.
  Lemma Run_det o l st : Run g solveh sfuel d o l st ->
    forall l' st', Run g solveh sfuel d o l' st' -> length l' = length l -> l' = l /\ st' = st.
  Proof.
    intros HR. induction HR as [st Hnew|l st s st1 HR IH Hnx]; intros l' st' HR' Hl.
    - inversion HR' as [st2 Hn2|l2 st2 s2 st3 HR2 Hnx2]; subst.
      + rewrite Hnew in Hn2. injection Hn2 as <-. auto.
      + rewrite app_length in Hl. cbn in Hl. lia.
    - inversion HR' as [st2 Hn2|l2 st2 s2 st3 HR2 Hnx2]; subst.
      + rewrite app_length in Hl. cbn in Hl. lia.
      + rewrite !app_length in Hl. cbn in Hl. destruct (IH l2 st2 HR2 ltac:(lia)) as (-> & ->).
        rewrite Hnx in Hnx2. injection Hnx2 as <- <-. auto.
  Qed.
  Lemma Run_prefix o l st : Run g solveh sfuel d o l st -> forall k, (k <= length l)%nat ->
    exists l' st', Run g solveh sfuel d o l' st' /\ length l' = k.
  Proof.
    intros HR. induction HR as [st Hnew|l st s st1 HR IH Hnx]; intros k Hk.
    - cbn in Hk. exists [], st. split; [now apply Run_start|cbn; lia].
    - destruct (Nat.eq_dec k (length (l ++ [s]))) as [->|Hne].
      + exists (l ++ [s]), st1. split; [now apply (Run_step _ _ _ _ _ _ st)|reflexivity].
      + apply IH. rewrite app_length in Hk, Hne. cbn in Hk, Hne. lia.
  Qed.
End Limit.

Lemma C69_lemma {e : MachEps} d o solveh sfuel bs :
  0 <= mach_eps -> wf d -> (0 < nobs d)%nat -> (0 < npar d)%nat -> weights_nonneg d ->
  solver_exact solveh -> definite_solver solveh ->
  0 < o_l1 o -> 0 < o_tol o ->
  match o_init o with Some b => length b = npar d | None => True end ->
  length bs = npar d -> kkt FLinear o d bs ->
  (exists N, forall m, (N <= m)%nat ->
     exists ft, regression (glm_of FLinear) solveh sfuel d (apply_opt o (SetMaxIter m)) = Ok ft) \/
  (forall N, exists m l st, (N <= length l)%nat /\
     Run (glm_of FLinear) solveh sfuel d (apply_opt o (SetMaxIter m)) l st /\
     rho_of (updated_reg st) <> rho_of (i_reg st)).
Proof.
  intros Heps Hwf Hn Hp Hwn Hse Hsd Hl1 Htol Hinit Hbs Hkkt.
  match goal with |- _ \/ ?Q => destruct (classic Q) as [HQ|HQ]; [now right|left] end.
  apply not_all_ex_not in HQ as (N0 & HQ).
  assert (Hc : forall m l st, Run (glm_of FLinear) solveh sfuel d (apply_opt o (SetMaxIter m)) l st ->
    (N0 <= length l)%nat -> rho_of (updated_reg st) = rho_of (i_reg st)).
  { intros m l st HR HN. destruct (Req_dec (rho_of (updated_reg st)) (rho_of (i_reg st))) as [E|E]; [exact E|].
    exfalso. apply HQ. exists m, l, st. auto. }
  destruct (bounded d o Heps Hwn) as (K & HK0 & HK).
  set (Rn m := Run (glm_of FLinear) solveh sfuel d (apply_opt o (SetMaxIter m))) in *.
  assert (OK : forall m, (forall l st, Rn m l st -> i_done st = false -> (length l < m)%nat) ->
    exists ft, regression (glm_of FLinear) solveh sfuel d (apply_opt o (SetMaxIter m)) = Ok ft).
  { intros m Hm. exact (l1_ok d (apply_opt o (SetMaxIter m)) bs solveh Heps Hwf Hwn Hse Hsd Hl1 Hbs sfuel K
      Hn Hp Htol HK0 HK Hinit Hm). }
  destruct (classic (exists l st, Rn N0 l st /\ length l = N0)) as [(l0 & st0 & HR0 & HL0)|Hno].
  - set (rho := rho_of (updated_reg st0)).
    set (u0 := Us d o bs st0). set (dl := least d o K rho).
    assert (Hst0 : state_ok o d st0) by exact (RunL_ok d (apply_opt o (SetMaxIter N0)) solveh Hwf Hse sfuel l0 st0 HR0).
    assert (Hrho : 0 < rho).
    { destruct (admm_facts d o Hl1 st0 Hst0) as (a & _ & _ & _ & _ & _ & F6 & _ & F8). unfold rho. now rewrite F8. }
    assert (Hdl : 0 < dl) by exact (least_pos d o K Hn Hp Htol HK0 rho Hrho).
    destruct (nat_above (2 * u0 / dl)) as (M & HM).
    exists (N0 + S M + 1)%nat. intros m Hm. apply OK. intros l st HR Hd.
    destruct (Nat.lt_ge_cases (length l) m) as [|Hge]; [assumption|exfalso].
    destruct (phase d (apply_opt o (SetMaxIter m)) bs solveh Heps Hwf Hwn Hse Hsd Hl1 Hbs Hkkt sfuel K
      Hn Hp Htol HK0 HK N0 (Hc m) l st HR (length l - N0 - 1)%nat ltac:(lia) Hd) as (l1 & st1 & HR1 & HL1 & _ & Hb).
    assert (st1 = st0).
    { assert (HR1' : Rn N0 l1 st1).
      { apply (Run_limit _ _ _ _ _ m); [exact HR1|]. rewrite HL1. apply le_n. }
      exact (proj2 (Run_det _ _ _ _ _ _ _ HR0 _ _ HR1' (eq_trans HL1 (eq_sym HL0)))). }
    subst st1.
    change (2 * Us d o bs st + Ds d bs st + INR (length l - N0 - 1) * dl <= 2 * u0) in Hb.
    assert (Hst : state_ok o d st) by exact (RunL_ok d (apply_opt o (SetMaxIter m)) solveh Hwf Hse sfuel l st HR).
    pose proof (Us_nonneg d o bs Heps Hwn Hl1 st Hst) as P1.
    pose proof (Ds_nonneg d o bs Hl1 st Hst) as P2.
    assert (INR M <= INR (length l - N0 - 1)) by (apply le_INR; lia).
    assert (INR M * dl <= INR (length l - N0 - 1) * dl) by (apply Rmult_le_compat_r; lra).
    assert (2 * u0 < INR M * dl).
    { apply Rmult_lt_compat_r with (r := dl) in HM; [|assumption]. unfold Rdiv in HM.
      rewrite Rmult_assoc, Rinv_l in HM by lra. lra. }
    lra.
  - exists (S N0). intros m Hm. apply OK. intros l st HR Hd.
    destruct (Nat.lt_ge_cases (length l) m) as [|Hge]; [assumption|exfalso].
    destruct (Run_prefix _ _ _ _ _ _ _ HR N0 ltac:(lia)) as (l' & st' & HR' & HL').
    apply Hno. exists l', st'. split; [|exact HL']. apply (Run_limit _ _ _ _ _ m); [exact HR'|]. rewrite HL'. apply le_n.
Qed.
