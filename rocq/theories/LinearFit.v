(** Linear regression, with or without a ridge penalty: the iteration ends and finds the estimate. *)
From Coq Require Import List Bool Arith ZArith Lia Reals Lra Psatz.
From Verif Require Import Num Arr Families Data Reg Irls FitM Model RInst SpecIrls IrlsFacts IrlsProofs
  LoopReal SpecGlm FamFacts Lin SpecData DataReal SpecFit FitFacts RegFacts GlmCalc GlmProps WitFit SpecLinear.
Import ListNotations.
Local Open Scope R_scope.

(** ** Two quadratic forms *)
Section Forms.
  Variables (n p : nat) (w : nat -> R) (x : nat -> nat -> R) (l : nat -> R).
  Hypothesis Hw : forall i, (i < n)%nat -> 0 <= w i.
  Hypothesis Hl : forall k, (k < p)%nat -> 0 <= l k.

  Definition xu (u : nat -> R) (i : nat) : R := sumn p (fun k => x i k * u k).
  Definition BG (u v : nat -> R) : R := sumn n (fun i => w i * (xu u i * xu v i)).
  Definition BL (u v : nat -> R) : R := sumn p (fun k => l k * (u k * v k)).
  Definition BA (u v : nat -> R) : R := BG u v + BL u v.

  Lemma xu_lin a b u v i : xu (fun k => a * u k + b * v k) i = a * xu u i + b * xu v i.
  Proof. unfold xu. rewrite <- !sumn_scal, <- sumn_add. apply sumn_ext. intros. ring. Qed.
  Lemma BG_lin a b u v z : BG (fun k => a * u k + b * v k) z = a * BG u z + b * BG v z.
  Proof.
    unfold BG. rewrite <- !sumn_scal, <- sumn_add. apply sumn_ext. intros. rewrite xu_lin. ring.
  Qed.
  Lemma BL_lin a b u v z : BL (fun k => a * u k + b * v k) z = a * BL u z + b * BL v z.
  Proof. unfold BL. rewrite <- !sumn_scal, <- sumn_add. apply sumn_ext. intros. ring. Qed.
  Lemma BG_sym u v : BG u v = BG v u.
  Proof. apply sumn_ext. intros. ring. Qed.
  Lemma BL_sym u v : BL u v = BL v u.
  Proof. apply sumn_ext. intros. ring. Qed.
  Lemma xu_ext u v i : (forall k, (k < p)%nat -> u k = v k) -> xu u i = xu v i.
  Proof. intros H. apply sumn_ext. intros. now rewrite H. Qed.
  Lemma BG_ext u v z : (forall k, (k < p)%nat -> u k = v k) -> BG u z = BG v z.
  Proof. intros H. apply sumn_ext. intros. now rewrite (xu_ext u v). Qed.
  Lemma BL_ext u v z : (forall k, (k < p)%nat -> u k = v k) -> BL u z = BL v z.
  Proof. intros H. apply sumn_ext. intros. now rewrite H. Qed.
  Lemma BG_nonneg u : 0 <= BG u u.
  Proof. apply sumn_nonneg. intros i Hi. apply Rmult_le_pos; [auto|nra]. Qed.
  Lemma BL_nonneg u : 0 <= BL u u.
  Proof. apply sumn_nonneg. intros i Hi. apply Rmult_le_pos; [auto|nra]. Qed.
  Lemma BA_nonneg u : 0 <= BA u u.
  Proof. unfold BA. pose proof (BG_nonneg u). pose proof (BL_nonneg u). lra. Qed.
  Lemma BA_lin a b u v z : BA (fun k => a * u k + b * v k) z = a * BA u z + b * BA v z.
  Proof. unfold BA. rewrite BG_lin, BL_lin. ring. Qed.
  Lemma BA_sym u v : BA u v = BA v u.
  Proof. unfold BA. now rewrite BG_sym, BL_sym. Qed.
  Lemma BA_ext u v z : (forall k, (k < p)%nat -> u k = v k) -> BA u z = BA v z.
  Proof. intros H. unfold BA. now rewrite (BG_ext u v), (BL_ext u v). Qed.

  (** Cauchy-Schwarz for a nonnegative symmetric form. *)
  Lemma form_cs (B : (nat -> R) -> (nat -> R) -> R) :
    (forall a b u v z, B (fun k => a * u k + b * v k) z = a * B u z + b * B v z) ->
    (forall u v, B u v = B v u) -> (forall u, 0 <= B u u) ->
    forall u v, B u v * B u v <= B u u * B v v.
  Proof.
    intros Lin Sym Pos u v.
    assert (Q : forall a b, 0 <= a * a * B u u + 2 * a * b * B u v + b * b * B v v).
    { intros a b. pose proof (Pos (fun k => a * u k + b * v k)) as H.
      rewrite Lin, (Sym u), (Sym v), !Lin in H. rewrite (Sym v u) in H. lra. }
    pose proof (Pos u) as Pu. pose proof (Pos v) as Pv.
    destruct (Req_dec (B v v) 0) as [Z|Z].
    - destruct (Req_dec (B u v) 0) as [Y|Y]; [rewrite Y, Z; lra|]. exfalso.
      pose proof (Q 1 (- (B u u + 1) / (2 * B u v))) as K. rewrite Z in K.
      replace (1 * 1 * B u u + 2 * 1 * (- (B u u + 1) / (2 * B u v)) * B u v +
               - (B u u + 1) / (2 * B u v) * (- (B u u + 1) / (2 * B u v)) * 0) with (-1) in K by (field; auto).
      lra.
    - pose proof (Q (B v v) (- B u v)) as K.
      assert (0 <= B v v * (B u u * B v v - B u v * B u v)) by lra.
      assert (0 < B v v) by lra. nra.
  Qed.

  (** One regularized Newton step: [u] is the error after it and [v] the error before it. *)
  Variable eps : R.
  Hypothesis Heps : 0 <= eps.
  Variables u v : nat -> R.
  Hypothesis Step : forall z, (1 + eps) * BG z u + BL z u = eps * BG z v.

  Lemma step_contract : BG u u <= (eps / (1 + eps)) ^ 2 * BG v v.
  Proof.
    pose proof (Step u) as H. pose proof (form_cs BG BG_lin BG_sym BG_nonneg u v) as CS.
    pose proof (BG_nonneg u) as Pu. pose proof (BG_nonneg v) as Pv. pose proof (BL_nonneg u) as Pl.
    set (a := BG u u) in *. set (c := BG v v) in *. set (t := BG u v) in *.
    assert (K : (1 + eps) * a <= eps * t) by lra.
    assert (K2 : (1 + eps) * (1 + eps) * (a * a) <= eps * eps * (a * c)).
    { assert (0 <= (1 + eps) * a) by nra.
      assert ((1 + eps) * a * ((1 + eps) * a) <= eps * t * (eps * t)) by nra. nra. }
    destruct (Req_dec a 0) as [->|Z]; [apply Rmult_le_pos; [apply pow2_ge_0|lra]|].
    assert (0 < a) by lra.
    assert (K3 : (1 + eps) * (1 + eps) * a <= eps * eps * c) by nra.
    replace ((eps / (1 + eps)) ^ 2 * c) with (eps * eps * c / ((1 + eps) * (1 + eps))) by (field; lra).
    apply Rmult_le_reg_r with ((1 + eps) * (1 + eps)); [nra|]. unfold Rdiv.
    rewrite Rmult_assoc, Rinv_l by nra. nra.
  Qed.

  Lemma step_descent : BA u u + BA (fun k => 1 * v k + (-1) * u k) (fun k => 1 * v k + (-1) * u k) <= BA v v.
  Proof.
    set (z := fun k => 1 * v k + (-1) * u k).
    pose proof (Step z) as H. pose proof (BG_nonneg z) as Pz.
    assert (E1 : BG z z = BG z v - BG z u).
    { unfold z at 2. rewrite BG_sym, BG_lin. rewrite (BG_sym v), (BG_sym u). ring. }
    assert (E2 : BA z u = eps * BG z z) by (unfold BA; rewrite E1; lra).
    assert (E3 : BA z u = BA v u - BA u u) by (unfold z; rewrite BA_lin; ring).
    assert (E4 : BA z z = BA v v - 2 * BA v u + BA u u).
    { unfold z at 1. rewrite BA_lin. rewrite (BA_sym v z), (BA_sym u z). unfold z. rewrite !BA_lin.
      rewrite (BA_sym u v). ring. }
    assert (0 <= eps * BG z z) by now apply Rmult_le_pos. lra.
  Qed.
End Forms.

(** ** The iteration *)
Section Lin.
  Context {e : MachEps}.
  Variables (d : dataset R) (o : fit_options R) (bs : list R).
  Variable solveh : mat R -> list R -> option (list R).
  Notation p := (npar d).
  Notation n := (nobs d).
  Notation ic := (d_intercept d).
  Notation G := (glm_of FLinear).
  Hypothesis Heps : 0 <= mach_eps.
  Hypothesis Hwf : wf d.
  Hypothesis Hwn : weights_nonneg d.
  Hypothesis Hse : solver_exact solveh.
  Hypothesis Hsd : definite_solver solveh.
  Hypothesis Hl1 : o_l1 o <= 0.
  Hypothesis Hbs : length bs = p.
  Hypothesis Hgr : forall k, (k < p)%nat -> gradv FLinear o d bs k = 0.
  Hypothesis Hinj : injective_mat p (fun j k => infov FLinear d bs j k + delta j k * l2c o ic k).

  Notation QG := (BG n p (wtv d) (xv d)).
  Notation QL := (BL p (l2c o ic)).
  Notation QA := (BA n p (wtv d) (xv d) (l2c o ic)).
  Definition er (b : list R) (k : nat) : R := vg b k - vg bs k.

  Lemma wt_nonneg i : (i < n)%nat -> 0 <= wtv d i.
  Proof. intros Hi. destruct (Hwn i Hi). unfold wtv. now apply Rmult_le_pos. Qed.
  Lemma l2_nonneg k : (k < p)%nat -> 0 <= l2c o ic k.
  Proof. intros _. apply l2c_nonneg. Qed.

  Lemma sumn_unit k (f : nat -> R) : (k < p)%nat -> sumn p (fun j => delta k j * f j) = f k.
  Proof.
    intros Hk. rewrite (sumn_ext p _ (fun j => if j =? k then f j else 0)).
    - now apply sumn_delta.
    - intros j Hj. unfold delta. rewrite Nat.eqb_sym. destruct (j =? k); ring.
  Qed.

  (** Entries of the matrices as forms. *)
  Lemma xu_unit k i : (k < p)%nat -> xu p (xv d) (delta k) i = xv d i k.
  Proof.
    intros Hk. unfold xu. rewrite (sumn_ext p _ (fun j => delta k j * xv d i j)) by (intros; ring).
    now rewrite sumn_unit.
  Qed.
  Lemma G_form z u : QG z u = sumn p (fun j => z j * sumn p (fun k =>
      sumn n (fun i => wtv d i * xv d i j * xv d i k) * u k)).
  Proof.
    unfold BG. rewrite (sumn_ext p _ (fun j => sumn n (fun i => wtv d i * xu p (xv d) u i * (xv d i j * z j)))).
    - rewrite sumn_swap. apply sumn_ext. intros i Hi. rewrite sumn_scal. fold (xu p (xv d) z i). ring.
    - intros j Hj.
      rewrite (sumn_ext p _ (fun k => sumn n (fun i => wtv d i * xv d i j * (xv d i k * u k))))
        by (intros; rewrite <- sumn_scalr; apply sumn_ext; intros; ring).
      rewrite sumn_swap, <- sumn_scal. apply sumn_ext. intros i Hi. rewrite sumn_scal.
      fold (xu p (xv d) u i). ring.
  Qed.
  Lemma L_form z u : QL z u = sumn p (fun j => z j * sumn p (fun k => delta j k * l2c o ic k * u k)).
  Proof.
    apply sumn_ext. intros j Hj.
    rewrite (sumn_ext p _ (fun k => delta j k * (l2c o ic k * u k))) by (intros; ring).
    rewrite sumn_unit by assumption. ring.
  Qed.
  Lemma A_form z u : QA z u = sumn p (fun j => z j * sumn p (fun k =>
      (infov FLinear d bs j k + delta j k * l2c o ic k) * u k)).
  Proof.
    unfold BA. rewrite G_form, L_form, <- sumn_add. apply sumn_ext. intros j Hj.
    rewrite <- Rmult_plus_distr_l, <- sumn_add. f_equal. apply sumn_ext. intros k Hk.
    unfold infov. rewrite (sumn_ext n (fun i => wtv d i * av_of _ _ * _ * _) (fun i => wtv d i * xv d i j * xv d i k)).
    - ring.
    - intros i Hi. unfold av_of. cbn. ring.
  Qed.

  Lemma A_definite u : QA u u = 0 -> forall k, (k < p)%nat -> u k = 0.
  Proof.
    intros H. apply Hinj. intros j Hj.
    assert (K : QA (delta j) u = 0).
    { pose proof (form_cs QA (BA_lin _ _ _ _ _) (BA_sym _ _ _ _ _)
        (BA_nonneg _ _ _ _ _ wt_nonneg l2_nonneg) (delta j) u) as CS.
      rewrite H, Rmult_0_r in CS. nra. }
    rewrite A_form in K. rewrite sumn_unit in K by assumption. exact K.
  Qed.

  (** The gradient is linear. *)
  Lemma grad_lin b j : length b = p -> (j < p)%nat ->
    gradv FLinear o d b j = - QA (delta j) (er b).
  Proof.
    intros Hb Hj. unfold BA.
    assert (E0 : gradv FLinear o d b j = gradv FLinear o d b j - gradv FLinear o d bs j)
      by (rewrite (Hgr j Hj); ring).
    rewrite E0. unfold gradv, BG, BL.
    rewrite (sumn_ext p (fun k => l2c o ic k * (delta j k * er b k)) (fun k => delta j k * (l2c o ic k * er b k)))
      by (intros; ring).
    rewrite sumn_unit by assumption.
    rewrite (sumn_ext n (fun i => wtv d i * (xu p (xv d) (delta j) i * xu p (xv d) (er b) i))
      (fun i => wtv d i * es_of FLinear (yv d i) (lpv d bs i) * xv d i j -
                wtv d i * es_of FLinear (yv d i) (lpv d b i) * xv d i j)).
    - rewrite sumn_sub. unfold er. ring.
    - intros i Hi. rewrite xu_unit by assumption.
      assert (E : xu p (xv d) (er b) i = lpv d b i - lpv d bs i).
      { unfold xu, er, lpv. rewrite (sumn_ext p _ (fun k => xv d i k * vg b k - xv d i k * vg bs k)) by (intros; ring).
        rewrite sumn_sub. ring. }
      rewrite E. unfold es_of. cbn. ring.
  Qed.

  Lemma er_xu b i : xu p (xv d) (er b) i = lpv d b i - lpv d bs i.
  Proof.
    unfold xu, er, lpv. rewrite (sumn_ext p _ (fun k => xv d i k * vg b k - xv d i k * vg bs k)) by (intros; ring).
    rewrite sumn_sub. ring.
  Qed.
  Lemma lpdist_form b : lpdist d b bs = QG (er b) (er b).
  Proof. apply sumn_ext. intros i Hi. rewrite er_xu. ring. Qed.

  Lemma reg_none r : reg_is o ic p r -> admm_of r = None /\ rho_of r = 0 /\ LoopReal.no_l1 r.
  Proof. intros Hr. destruct r; cbn in *; repeat split; auto; lra. Qed.

  (** What the solver answers. *)
  Lemma lin_step st ng : state_ok o d st -> proposed G solveh d st = Some ng ->
    length ng = p /\
    forall z, (1 + mach_eps) * QG z (er ng) + QL z (er ng) = mach_eps * QG z (er (i_guess st)).
  Proof.
    intros Hst Hp. destruct (newton_eq FLinear d o Hwf solveh st ng Hse Hst Hp) as (Hl & He).
    split; [exact Hl|]. destruct (updated_ok d o st Hst) as (Hr & _).
    destruct (reg_none _ Hr) as (Hr0 & Hrho & _). destruct Hst as (Hb & _ & _). set (b := i_guess st) in *.
    intros z.
    assert (K : (1 + mach_eps) * QG z (fun k => vg ng k - vg b k) + QL z (fun k => vg ng k - vg b k)
                = - QA z (er b)).
    { rewrite G_form, L_form, <- sumn_scal, <- sumn_add.
      transitivity (sumn p (fun j => z j * gradv FLinear o d b j)).
      - apply sumn_ext. intros j Hj. specialize (He j Hj). unfold pull in He. rewrite Hr0, Rminus_0_r in He.
        rewrite <- He. rewrite <- (Rmult_assoc (1 + mach_eps)), (Rmult_comm (1 + mach_eps)), Rmult_assoc.
        rewrite <- Rmult_plus_distr_l. f_equal. rewrite <- sumn_scal, <- sumn_add. apply sumn_ext. intros k Hk.
        unfold newtonv. rewrite Hrho.
        rewrite (sumn_ext n (fun i => wtv d i * (av_of FLinear (lpv d b i) + mach_eps) * xv d i j * xv d i k)
             (fun i => (1 + mach_eps) * (wtv d i * xv d i j * xv d i k))).
        + rewrite sumn_scal. ring.
        + intros i Hi. unfold av_of. cbn. ring.
      - rewrite A_form, <- sumn_opp. apply sumn_ext. intros j Hj. rewrite grad_lin by assumption.
        rewrite A_form, sumn_unit by assumption. ring. }
    assert (E : forall B : (nat -> R) -> (nat -> R) -> R,
       (forall a b u v z, B (fun k => a * u k + b * v k) z = a * B u z + b * B v z) ->
       (forall u v, B u v = B v u) ->
       (forall u v z, (forall k, (k < p)%nat -> u k = v k) -> B u z = B v z) ->
       B z (fun k => vg ng k - vg b k) = B z (er ng) - B z (er b)).
    { intros B Lin Sym Ext. rewrite Sym.
      rewrite (Ext _ (fun k => 1 * er ng k + (-1) * er b k)) by (intros; unfold er; ring).
      rewrite Lin, (Sym (er ng)), (Sym (er b)). ring. }
    rewrite (E QG (BG_lin _ _ _ _) (BG_sym _ _ _ _) (BG_ext _ _ _ _)) in K.
    rewrite (E QL (BL_lin _ _) (BL_sym _ _) (BL_ext _ _)) in K.
    unfold BA in K. lra.
  Qed.

  (** The objective is a constant minus half the squared error. *)
  Lemma rllv_form b : length b = p -> rllv FLinear o d b = rllv FLinear o d bs - / 2 * QA (er b) (er b).
  Proof.
    intros Hb.
    assert (Z : sumn p (fun k => gradv FLinear o d bs k * er b k) = 0).
    { apply sumn_zero'. intros k Hk. rewrite Hgr by assumption. ring. }
    assert (Z2 : sumn p (fun k => gradv FLinear o d bs k * er b k) =
      sumn n (fun i => wtv d i * (yv d i - lpv d bs i) * (lpv d b i - lpv d bs i)) -
      sumn p (fun k => l2c o ic k * vg bs k * er b k)).
    { unfold gradv.
      rewrite (sumn_ext p _ (fun k => sumn n (fun i => wtv d i * (yv d i - lpv d bs i) * (xv d i k * er b k)) -
         l2c o ic k * vg bs k * er b k)).
      - rewrite sumn_sub. f_equal. rewrite sumn_swap. apply sumn_ext. intros i Hi.
        rewrite sumn_scal. fold (xu p (xv d) (er b) i). now rewrite er_xu.
      - intros k Hk. rewrite Rmult_minus_distr_r, <- sumn_scalr. f_equal. apply sumn_ext. intros i Hi.
        unfold es_of. cbn. ring. }
    assert (L : llv FLinear d b - llv FLinear d bs =
      sumn n (fun i => wtv d i * (yv d i - lpv d bs i) * (lpv d b i - lpv d bs i)) - / 2 * QG (er b) (er b)).
    { unfold llv, BG. rewrite <- sumn_scal, <- !sumn_sub. apply sumn_ext. intros i Hi. rewrite er_xu.
      unfold ll1. cbn. field. }
    assert (P : penv o ic p b - penv o ic p bs =
      sumn p (fun k => l2c o ic k * vg bs k * er b k) + / 2 * QL (er b) (er b)).
    { unfold penv, BL. rewrite <- sumn_scal, <- sumn_sub, <- sumn_add. apply sumn_ext. intros k Hk.
      rewrite !l1c_off by assumption. unfold er. field. }
    unfold rllv, BA. lra.
  Qed.

  (** The solver answers. *)
  Lemma lin_proposed st : state_ok o d st -> exists ng, proposed G solveh d st = Some ng.
  Proof.
    intros Hst. destruct (updated_ok d o st Hst) as (Hr & _).
    destruct (reg_none _ Hr) as (Hr0 & Hrho & Hno). destruct Hst as (Hb & _ & _).
    destruct (irls_mat_vec_spec FLinear d Hwf (i_guess st) Hb) as (M1 & V1 & M2 & _).
    assert (E : forall j k, (j < p)%nat -> (k < p)%nat ->
      mg (reg_irls_mat (updated_reg st) (fst (irls_mat_vec G d (i_guess st)))) j k =
      (1 + mach_eps) * sumn n (fun i => wtv d i * xv d i j * xv d i k) + delta j k * l2c o ic k).
    { intros j k Hj Hk. rewrite (reg_irls_mat_spec o ic p) by auto. rewrite M2, Hrho by assumption.
      rewrite <- sumn_scal. f_equal; [|ring]. apply sumn_ext. intros i Hi. unfold av_of. cbn. ring. }
    apply (Hsd p); auto.
    - now apply reg_irls_mat_shape.
    - destruct (updated_reg st); try contradiction; exact V1.
    - intros j k Hj Hk. rewrite !E by assumption. f_equal.
      + f_equal. apply sumn_ext. intros. ring.
      + unfold delta. rewrite (Nat.eqb_sym k j). destruct (Nat.eqb_spec j k); [subst; ring|ring].
    - intros u (k & Hk & Hu).
      rewrite (sumn_ext p _ (fun j => u j * sumn p (fun k => ((1 + mach_eps) *
        sumn n (fun i => wtv d i * xv d i j * xv d i k) + delta j k * l2c o ic k) * u k))).
      2: { intros j Hj. rewrite <- sumn_scal. apply sumn_ext. intros k0 Hk0. rewrite E by assumption. ring. }
      assert (K : sumn p (fun j => u j * sumn p (fun k => ((1 + mach_eps) *
        sumn n (fun i => wtv d i * xv d i j * xv d i k) + delta j k * l2c o ic k) * u k)) =
        mach_eps * QG u u + QA u u).
      { unfold BA. rewrite G_form, L_form.
        rewrite <- sumn_scal, <- !sumn_add. apply sumn_ext. intros j Hj.
        rewrite (sumn_ext p (fun k => ((1 + mach_eps) * _ + _) * u k)
          (fun k => (1 + mach_eps) * (sumn n (fun i => wtv d i * xv d i j * xv d i k) * u k) +
                    delta j k * l2c o ic k * u k)) by (intros; ring).
        rewrite sumn_add, sumn_scal. ring. }
      rewrite K. pose proof (BG_nonneg n p (wtv d) (xv d) wt_nonneg u) as P1.
      pose proof (BA_nonneg n p (wtv d) (xv d) (l2c o ic) wt_nonneg l2_nonneg u) as P2.
      assert (QA u u <> 0) by (intros Z; apply Hu; now apply A_definite).
      assert (0 <= mach_eps * QG u u) by now apply Rmult_le_pos. lra.
  Qed.

  (** The quadratic form dominates the squared length. *)
  Lemma coercive : exists C, 0 < C /\ forall u, sumn p (fun k => u k * u k) <= C * QA u u.
  Proof.
    set (A := Mat (F := R) p (map (fun j => map (fun k =>
       infov FLinear d bs j k + delta j k * l2c o ic k) (seq 0 p)) (seq 0 p))).
    assert (EA : forall j k, (j < p)%nat -> (k < p)%nat ->
       mg A j k = infov FLinear d bs j k + delta j k * l2c o ic k).
    { intros j k Hj Hk. unfold mg, A. cbn [mrows].
      rewrite nth_map_seq by assumption. now rewrite vg_map_seq. }
    assert (SA : mat_shape p p A).
    { unfold mat_shape, A. cbn [mcols mrows]. rewrite map_length, seq_length. repeat split; auto.
      apply Forall_forall. intros r Hr. apply in_map_iff in Hr as (j & <- & _).
      now rewrite map_length, seq_length. }
    assert (Z : forall k, (k < p)%nat -> exists z, forall u, QA u z = u k).
    { intros k Hk. destruct (Hsd p A (map (delta k) (seq 0 p)) SA) as (x & Hx).
      - now rewrite map_length, seq_length.
      - intros i j Hi Hj. rewrite !EA by assumption. f_equal.
        + apply sumn_ext. intros. ring.
        + unfold delta. rewrite (Nat.eqb_sym j i). destruct (Nat.eqb_spec i j); [subst; ring|ring].
      - intros u (i & Hi & Hu).
        rewrite (sumn_ext p _ (fun j => u j * sumn p (fun k => (infov FLinear d bs j k + delta j k * l2c o ic k) * u k))).
        2: { intros j Hj. rewrite <- sumn_scal. apply sumn_ext. intros k0 Hk0. rewrite EA by assumption. ring. }
        rewrite <- A_form.
        pose proof (BA_nonneg n p (wtv d) (xv d) (l2c o ic) wt_nonneg l2_nonneg u) as P2.
        assert (QA u u <> 0) by (intros Y; apply Hu; now apply A_definite). lra.
      - destruct (Hse _ _ _ Hx) as (Lx & Ex). exists (vg x). intros u. rewrite A_form.
        rewrite (sumn_ext p _ (fun j => delta k j * u j)).
        + now apply sumn_unit.
        + intros j Hj. rewrite Rmult_comm. f_equal.
          assert (Q : vg (mat_vec A x) j = delta k j) by (rewrite Ex; now rewrite vg_map_seq).
          rewrite <- Q. rewrite (vg_mat_vec p p); auto.
          * apply sumn_ext. intros i Hi. now rewrite EA.
          * rewrite Lx. apply SA. }
    assert (K : forall m, (m <= p)%nat -> exists C, 0 < C /\ forall u, sumn m (fun k => u k * u k) <= C * QA u u).
    { induction m as [|m IH]; intros Hm.
      - exists 1. split; [lra|]. intros u. cbn.
        pose proof (BA_nonneg n p (wtv d) (xv d) (l2c o ic) wt_nonneg l2_nonneg u). lra.
      - destruct (IH ltac:(lia)) as (C & HC & H). destruct (Z m ltac:(lia)) as (z & Hz).
        exists (C + QA z z).
        pose proof (BA_nonneg n p (wtv d) (xv d) (l2c o ic) wt_nonneg l2_nonneg z) as Pz.
        split; [lra|]. intros u. cbn [sumn]. specialize (H u).
        pose proof (form_cs QA (BA_lin _ _ _ _ _) (BA_sym _ _ _ _ _)
          (BA_nonneg _ _ _ _ _ wt_nonneg l2_nonneg) u z) as CS.
        rewrite Hz in CS. lra. }
    exact (K p (le_n _)).
  Qed.

  Section Loop.
    Variables (sfuel : nat) (C : R).
    Hypothesis Hn : (0 < n)%nat.
    Hypothesis Hp : (0 < p)%nat.
    Hypothesis Htol : 0 < o_tol o.
    Hypothesis HC : 0 < C.
    Hypothesis Hco : forall u, sumn p (fun k => u k * u k) <= C * QA u u.
    Hypothesis Hinit : match o_init o with Some b => length b = p | None => True end.
    Notation Run := (Run G solveh sfuel d o).
    Notation next := (next G solveh sfuel d o).
    Notation s0 := (start_guess G solveh d o).

    (** An increase of the objective by less than this ends the iteration. *)
    Definition small : R := Rmin (o_tol o * INR n) (INR p * o_tol o * o_tol o / (2 * C)).
    Lemma small_pos : 0 < small.
    Proof.
      apply lt_0_INR in Hn. apply lt_0_INR in Hp. unfold small. apply Rmin_glb_lt.
      - now apply Rmult_lt_0_compat.
      - apply Rmult_lt_0_compat; [repeat apply Rmult_lt_0_compat; auto|apply Rinv_0_lt_compat; lra].
    Qed.

    Lemma solver_len_exact : solver_len solveh.
    Proof. intros A b x H. now destruct (Hse _ _ _ H). Qed.
    Lemma Run_ok l st : Run l st -> state_ok o d st.
    Proof. intros HR. exact (Run_state_ok _ _ _ _ _ _ _ Hwf solver_len_exact HR). Qed.

    Lemma obj_eq st b : state_ok o d st -> length b = p ->
      log_like G d b + reg_irls_like (updated_reg st) b = rllv FLinear o d b.
    Proof.
      intros Hst Hb. destruct (updated_ok d o st Hst) as (Hr & _). destruct (reg_none _ Hr) as (_ & _ & Hno).
      rewrite no_l1_irls_like, (reg_likelihood_spec o ic p), log_like_spec by auto. unfold rllv. lra.
    Qed.

    (** A call of [next] that is not preceded by convergence. *)
    Lemma next_lin l st : Run l st -> i_done st = false ->
      exists ng, proposed G solveh d st = Some ng /\ length ng = p /\
        QA (er ng) (er ng) <= QA (er (i_guess st)) (er (i_guess st)) /\
        QG (er ng) (er ng) <= (mach_eps / (1 + mach_eps)) ^ 2 * QG (er (i_guess st)) (er (i_guess st)) /\
        (mach_eps = 0 -> ng = bs) /\
        ((ng = i_guess st /\ snd (next st) = IEnd) \/
         exists dn, next st = step_with o (mk st (updated_reg st) dn) (updated_reg st) dn ng (log_like G d ng) /\
           (dn = false -> QA (er ng) (er ng) + 2 * small <= QA (er (i_guess st)) (er (i_guess st)))).
    Proof.
      intros HR Hd. pose proof (Run_ok _ _ HR) as Hst.
      destruct (lin_proposed st Hst) as (ng & Hng). exists ng.
      destruct (lin_step st ng Hst Hng) as (Lng & Hstep).
      pose proof (step_contract n p (wtv d) (xv d) (l2c o ic) wt_nonneg l2_nonneg mach_eps Heps
        (er ng) (er (i_guess st)) Hstep) as Hcon.
      pose proof (step_descent n p (wtv d) (xv d) (l2c o ic) wt_nonneg mach_eps Heps
        (er ng) (er (i_guess st)) Hstep) as Hdes.
      set (z := fun k => 1 * er (i_guess st) k + -1 * er ng k) in *.
      pose proof (BA_nonneg n p (wtv d) (xv d) (l2c o ic) wt_nonneg l2_nonneg z) as Pz.
      assert (Lb : length (i_guess st) = p) by apply Hst.
      split; [exact Hng|]. split; [exact Lng|]. split; [lra|]. split; [exact Hcon|]. split.
      { intros E0. rewrite E0 in Hstep. apply (vec_ext_n _ _ p); auto. intros k Hk.
        assert (K : QA (er ng) (er ng) = 0).
        { unfold BA. specialize (Hstep (er ng)). lra. }
        pose proof (A_definite _ K k Hk) as K2. unfold er in K2. lra. }
      destruct (Run_inv _ _ _ _ _ _ _ HR) as (_ & _ & _ & I4 & _).
      destruct (updated_ok d o st Hst) as (Hr & _). destruct (reg_none _ Hr) as (_ & _ & Hno).
      unfold Irls.next. rewrite Hd.
      destruct (irls_mat_vec G d (i_guess st)) as [m v] eqn:Em.
      unfold reg_next_guess. unfold proposed in Hng. rewrite Em in Hng. cbn [fst snd] in Hng.
      unfold updated_reg in Hng, Hno |- *.
      set (r := reg_prepare (i_reg st) (i_guess st)) in *. rewrite Hng.
      rewrite no_l1_terminate by assumption. cbn [negb].
      destruct (veqb ng (i_guess st)) eqn:Ev.
      { left. split; [now apply veqb_eq|reflexivity]. }
      right.
      assert (Hne : ng <> i_guess st) by (intros ->; now rewrite veqb_refl in Ev).
      assert (Hz : 0 < QA z z).
      { assert (QA z z <> 0); [|lra]. intros Z. apply Hne. apply (vec_ext_n _ _ p); auto.
        intros k Hk. pose proof (A_definite _ Z k Hk) as K. unfold z, er in K. lra. }
      assert (O1 : log_like G d ng + reg_irls_like r ng = rllv FLinear o d ng).
      { exact (obj_eq st ng Hst Lng). }
      assert (O2 : i_last_like st + reg_irls_like r (i_guess st) = rllv FLinear o d (i_guess st)).
      { rewrite I4. exact (obj_eq st _ Hst Lb). }
      assert (O3 : rllv FLinear o d ng - rllv FLinear o d (i_guess st) =
        / 2 * (QA (er (i_guess st)) (er (i_guess st)) - QA (er ng) (er ng))).
      { rewrite (rllv_form ng), (rllv_form (i_guess st)) by assumption. lra. }
      assert (Hgt : fgtb (fadd (log_like G d ng) (reg_irls_like r ng))
                         (fadd (i_last_like st) (reg_irls_like r (i_guess st))) = true).
      { unfold fgtb. rops. rewrite O1, O2. unfold Rltb. destruct (Rlt_dec _ _); [reflexivity|]. exfalso. lra. }
      rewrite Hgt.
      match goal with |- context [if ?A && ?B then true else ?q] =>
        set (cA := A); set (cB := B); set (dn := if cA && cB then true else q) end.
      exists dn. split; [reflexivity|]. intros Edn.
      destruct (Rle_dec (rllv FLinear o d ng - rllv FLinear o d (i_guess st)) small) as [Hs|Hs]; [|lra].
      exfalso. enough (dn = true) by congruence. unfold dn.
      replace cA with true; [replace cB with true; [reflexivity|]|].
      - symmetry. unfold cB, small_delta_vec.
        assert (Ld : length (vsub ng (i_guess st)) = p) by now apply vsub_length.
        rewrite Ld. rops. unfold Rleb. destruct (Rle_dec _ _) as [|K]; [reflexivity|]. exfalso. apply K. clear K.
        assert (S1 : vsum (map (fun x => x * x) (vsub ng (i_guess st))) = sumn p (fun k => z k * z k)).
        { rewrite vsum_sumn, map_length, Ld. apply sumn_ext. intros k Hk. rewrite vg_map by lia.
          rewrite (vg_sub2 _ _ p) by auto. unfold z, er. ring. }
        rops. rewrite S1.
        assert (S2 : 0 <= vsum (map (fun x => x * x) ng)).
        { rewrite vsum_sumn. apply sumn_nonneg. intros k Hk. rewrite map_length in Hk.
          rewrite vg_map by assumption. nra. }
        assert (S3 : small <= INR p * o_tol o * o_tol o / (2 * C)) by apply Rmin_r.
        assert (S4 : QA z z <= 2 * small) by lra.
        pose proof (Hco z) as S5.
        assert (S6 : C * (2 * (INR p * o_tol o * o_tol o / (2 * C))) = INR p * o_tol o * o_tol o) by (field; lra).
        assert (S7 : C * QA z z <= INR p * o_tol o * o_tol o).
        { rewrite <- S6. apply Rmult_le_compat_l; lra. }
        assert (0 <= vsum (map (fun x => x * x) ng) * o_tol o * o_tol o)
          by (repeat apply Rmult_le_pos; lra).
        lra.
      - symmetry. unfold cA, small_delta. rops. rewrite O1, O2. unfold Rleb.
        destruct (Rle_dec _ _) as [|K]; [reflexivity|]. exfalso. apply K.
        assert (small <= o_tol o * INR n) by apply Rmin_l.
        change (INR (length (d_y d))) with (INR n). rewrite Rabs_pos_eq; lra.
    Qed.

    Lemma Run_facts l st : Run l st ->
      QG (er (i_guess st)) (er (i_guess st)) <=
        (mach_eps / (1 + mach_eps)) ^ (2 * length l) * QG (er s0) (er s0) /\
      (mach_eps = 0 -> l <> [] -> i_guess st = bs) /\
      (i_done st = false -> QA (er (i_guess st)) (er (i_guess st)) + 2 * small * INR (length l) <= QA (er s0) (er s0)).
    Proof.
      intros HR. induction HR as [st Hnew|l st s st' HR IH Hnx].
      - destruct (irls_new_fresh _ _ _ _ _ Hnew) as (_ & -> & _). cbn [length INR].
        change (2 * 0)%nat with 0%nat. rewrite pow_O. split; [lra|]. split; [contradiction|]. intros _. lra.
      - destruct IH as (I1 & I2 & I3).
        destruct (next_step _ _ _ _ _ _ _ _ Hnx) as (Hd & _).
        destruct (next_lin l st HR Hd) as (ng & _ & Lng & K1 & K2 & K3 & [[_ K4]|(dn & K4 & K5)]).
        { rewrite Hnx in K4. discriminate. }
        rewrite Hnx in K4. symmetry in K4. apply step_with_inv in K4 as (-> & _). cbn [i_guess i_done].
        rewrite app_length. cbn [length]. split; [|split].
        + apply Rle_trans with (1 := K2).
          replace (2 * (length l + 1))%nat with (2 + 2 * length l)%nat by lia. rewrite pow_add, Rmult_assoc.
          apply Rmult_le_compat_l; [apply pow2_ge_0|exact I1].
        + auto.
        + intros Ed. specialize (K5 Ed). specialize (I3 Hd). rewrite plus_INR. cbn [INR]. lra.
    Qed.

    Lemma start_length : length s0 = p.
    Proof.
      unfold start_guess. destruct (o_init o) as [b|]; [now apply transform_beta_length|].
      unfold init_guess. destruct (solveh _ _) as [b|] eqn:E.
      - destruct (Hse _ _ _ E) as (-> & _). unfold npar. rewrite <- (nrows_x_conj d). unfold nrows, mat_mul. cbn [mrows]. now rewrite map_length.
      - apply repeat_length.
    Qed.

    Lemma lin_ok : QA (er s0) (er s0) < 2 * small * INR (o_max_iter o) ->
      exists ft, regression G solveh sfuel d o = Ok ft.
    Proof.
      intros HE. destruct (regression G solveh sfuel d o) as [ft|er0| |] eqn:ER; [eauto| | |]; exfalso.
      - apply err_run in ER as (l & st & st' & HR & Hnx).
        assert (Hd : i_done st = false).
        { unfold Irls.next in Hnx. destruct (i_done st); [discriminate|reflexivity]. }
        destruct (next_lin l st HR Hd) as (ng & _ & Lng & K1 & K2 & K3 & [[_ K4]|(dn & K4 & K5)]).
        { rewrite Hnx in K4. discriminate. }
        rewrite Hnx in K4. symmetry in K4. apply step_with_inv in K4 as (_ & [[_ K]|[K _]]); [discriminate|].
        destruct (Run_inv _ _ _ _ _ _ _ HR) as (I1 & _). cbn [mk i_n_iter] in K. rewrite I1 in K.
        destruct (Run_facts l st HR) as (_ & _ & I3). specialize (I3 Hd).
        pose proof (BA_nonneg n p (wtv d) (xv d) (l2c o ic) wt_nonneg l2_nonneg (er (i_guess st))) as Pz.
        assert (INR (o_max_iter o) <= INR (length l)) by (apply le_INR; lia).
        pose proof small_pos. assert (2 * small * INR (o_max_iter o) <= 2 * small * INR (length l)).
        { apply Rmult_le_compat_l; lra. }
        lra.
      - unfold regression, optimize in ER.
        replace (match o_init o with Some b => negb (length b =? mcols (d_x d)) | None => false end)
          with false in ER.
        2:{ destruct (o_init o); [|reflexivity]. unfold npar in Hinit. now rewrite Hinit, Nat.eqb_refl. }
        unfold irls_new in ER.
        destruct (get_reg_some o (mcols (d_x d)) ic (fun _ => Hp)) as (r & Er). rewrite Er in ER.
        rewrite start_length in ER. unfold npar in ER at 1. rewrite Nat.eqb_refl in ER. cbn [bind] in ER.
        destruct (drive _ _ _ _ _ _ _ _) as [[st b]| | |] eqn:Ed; try discriminate ER.
        now apply drive_not_panic in Ed.
      - unfold regression in ER.
        destruct (optimize G solveh sfuel d o) as [[opt st]| | |] eqn:E; try discriminate ER.
        apply optimize_diverge in E as (st0 & l & st1 & st' & Hnew & HS & HN).
        assert (HR : Run l st1) by now apply (Run_Steps _ _ _ _ _ st0).
        assert (Hd : i_done st1 = false).
        { unfold Irls.next in HN. destruct (i_done st1); [discriminate|reflexivity]. }
        destruct (next_lin l st1 HR Hd) as (ng & _ & Lng & K1 & K2 & K3 & [[_ K4]|(dn & K4 & K5)]).
        { rewrite HN in K4. discriminate. }
        rewrite HN in K4. symmetry in K4. apply step_with_inv in K4 as (_ & [[_ K]|[_ K]]); discriminate K.
    Qed.

    Lemma lin_result ft : regression G solveh sfuel d o = Ok ft ->
      lpdist d (f_result_std ft) bs <= (mach_eps / (1 + mach_eps)) ^ (2 * f_n_iter ft) * lpdist d s0 bs /\
      (mach_eps = 0 -> f_result_std ft = bs).
    Proof.
      intros Hft. pose proof (fit_consistent G solveh sfuel d o ft solver_len_exact Hft) as HC0.
      destruct (C04_monotone G solveh sfuel d o ft solver_len_exact Hl1 Hft) as (_ & _ & Hres).
      apply ok_run in Hft as (l & st & st' & opt & HR & HE & Ho & ->).
      destruct (next_end _ _ _ _ _ _ _ HE) as (E1 & E2 & E3 & _).
      destruct (Run_inv _ _ _ _ _ _ _ HR) as (I1 & I2 & _ & _ & _ & _ & I7).
      assert (Eg : s_guess opt = i_guess st).
      { rewrite (co_res _ _ _ _ HC0) in Hres. cbn [fit_new f_history f_result_std] in Hres.
        rewrite E3, I2, map_map in Hres. cbn [s_guess] in Hres.
        assert (X : last (map (fun s => inverse_transform_beta d (s_guess s)) l) (inverse_transform_beta d s0) =
                    inverse_transform_beta d (i_guess st)).
        { rewrite I7, <- (last_map_default (inverse_transform_beta d)), map_map. reflexivity. }
        rewrite X in Hres.
        assert (Lb : length (i_guess st) = p) by apply (Run_ok _ _ HR).
        assert (Lo : length (s_guess opt) = p) by exact (co_len _ _ _ _ HC0).
        rewrite <- (transform_inverse d (s_guess opt)), <- (transform_inverse d (i_guess st)) by assumption.
        now rewrite Hres. }
      cbn [fit_new f_result_std f_n_iter]. rewrite Eg, E2, I1, !lpdist_form.
      destruct (Run_facts l st HR) as (F1 & F2 & _). split; [exact F1|].
      intros E0. destruct l as [|s l]; [|apply F2; [exact E0|discriminate]].
      destruct (i_done st) eqn:Hd.
      { inversion HR as [st1 Hnew|l1 st1 s1 st2 HR1 Hnx]; subst.
        - destruct (irls_new_fresh _ _ _ _ _ Hnew) as ((_ & _ & Hf & _) & _). congruence.
        - destruct l1; discriminate. }
      destruct (next_lin [] st HR Hd) as (ng & _ & Lng & _ & _ & K3 & [[K4 _]|(dn & K4 & _)]).
      - rewrite <- K4. auto.
      - rewrite HE in K4. symmetry in K4. apply step_with_inv in K4 as (_ & [[_ K]|[_ K]]); discriminate K.
    Qed.
  End Loop.
End Lin.

Lemma nat_above x : exists N, x < INR N.
Proof.
  exists (Z.to_nat (Z.max 0 (up x))). destruct (archimed x) as (H & _).
  rewrite INR_IZR_INZ, Z2Nat.id by lia. apply Rlt_le_trans with (1 := H). apply IZR_le. lia.
Qed.

Lemma C67_lemma {e : MachEps} d o solveh sfuel bs :
  0 <= mach_eps -> wf d -> (0 < nobs d)%nat -> (0 < npar d)%nat -> weights_nonneg d ->
  solver_exact solveh -> definite_solver solveh ->
  o_l1 o <= 0 -> 0 < o_tol o ->
  match o_init o with Some b => length b = npar d | None => True end ->
  length bs = npar d -> (forall k, (k < npar d)%nat -> gradv FLinear o d bs k = 0) ->
  injective_mat (npar d) (fun j k => infov FLinear d bs j k + delta j k * l2c o (d_intercept d) k) ->
  exists N, forall m, (N <= m)%nat ->
    exists ft, regression (glm_of FLinear) solveh sfuel d (apply_opt o (SetMaxIter m)) = Ok ft /\
      lpdist d (f_result_std ft) bs <=
        (mach_eps / (1 + mach_eps)) ^ (2 * f_n_iter ft) * lpdist d (start_guess (glm_of FLinear) solveh d o) bs /\
      (mach_eps = 0 -> f_result_std ft = bs).
Proof.
  intros Heps Hwf Hn Hp Hwn Hse Hsd Hl1 Htol Hinit Hbs Hgr Hinj.
  destruct (coercive d o bs solveh Hwn Hse Hsd Hbs Hinj) as (C & HC & Hco).
  pose proof (small_pos d o C Hn Hp Htol HC) as Hsm.
  set (E0 := BA (nobs d) (npar d) (wtv d) (xv d) (l2c o (d_intercept d))
    (er bs (start_guess (glm_of FLinear) solveh d o)) (er bs (start_guess (glm_of FLinear) solveh d o))).
  destruct (nat_above (E0 / (2 * small d o C))) as (N & HN).
  exists N. intros m Hm. set (o' := apply_opt o (SetMaxIter m)).
  assert (HE : E0 < 2 * small d o C * INR m).
  { apply Rmult_lt_reg_r with (/ (2 * small d o C)); [apply Rinv_0_lt_compat; lra|].
    replace (2 * small d o C * INR m * / (2 * small d o C)) with (INR m) by (field; lra).
    apply Rlt_le_trans with (1 := HN). now apply le_INR. }
  destruct (lin_ok d o' bs solveh Heps Hwf Hwn Hse Hsd Hl1 Hbs Hgr Hinj sfuel C Hn Hp Htol HC Hco Hinit HE) as (ft & Hft).
  exists ft. split; [exact Hft|].
  exact (lin_result d o' bs solveh Heps Hwf Hwn Hse Hsd Hl1 Hbs Hgr Hinj sfuel C Hn Hp Htol HC Hco ft Hft).
Qed.
