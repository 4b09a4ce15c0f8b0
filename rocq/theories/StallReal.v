(** An L1 fit over the real numbers, with any exact solver, that never meets the termination
    criterion: interval arithmetic on affine forms shows that the iteration stays near a cycle. *)
From Coq Require Import List Bool Arith Lia Reals Lra QArith Qreals Qminmax.
From Verif Require Import Num Arr Families Data Reg Irls FitM RInst SpecIrls Wit LoopReal SpecGlm Lin SpecData SpecFit
  FitFacts SpecLinear RegFacts GlmWit Stall.
Import ListNotations.
Local Open Scope R_scope.

(** Two observations at x = 4 and x = 5 with responses -2 and 2, with an intercept, not
    standardized. *)
Definition dS : dataset R := Dataset [-2; 2] (Mat 2 [[1; 4]; [1; 5]]) None None None true None.
(** Defaults except for an L1 penalty of 16 and the tolerance. *)
Definition oSt (tol : R) : fit_options R := FitOptions 128 tol 16 0 None.

Section Step.
  Context {e : MachEps}.
  Hypothesis He : mach_eps = 0.
  Variable solveh : mat R -> list R -> option (list R).
  Hypothesis HS : solver_exact solveh.
  Hypothesis HD : definite_solver solveh.

  Lemma solve2 a b c v0 v1 x0 x1 : 0 < a -> 0 < a * c - b * b ->
    a * x0 + b * x1 = v0 -> b * x0 + c * x1 = v1 ->
    solveh (Mat 2 [[a; b]; [b; c]]) [v0; v1] = Some [x0; x1].
  Proof.
    intros Ha Hdet E0 E1.
    assert (Hx : exists x, solveh (Mat 2 [[a; b]; [b; c]]) [v0; v1] = Some x).
    { apply (HD 2%nat).
      - split; [reflexivity|]. repeat constructor.
      - reflexivity.
      - intros j k Hj Hk. destruct j as [|[|j]]; [| |lia]; (destruct k as [|[|k]]; [| |lia]); reflexivity.
      - intros u (k & Hk & Hu). cbn. unfold mg, vg. cbn.
        assert (H : a * (a * u 0%nat * u 0%nat + 2 * b * u 0%nat * u 1%nat + c * u 1%nat * u 1%nat) =
          (a * u 0%nat + b * u 1%nat) * (a * u 0%nat + b * u 1%nat) + (a * c - b * b) * (u 1%nat * u 1%nat)) by ring.
        assert (P : 0 < a * (a * u 0%nat * u 0%nat + 2 * b * u 0%nat * u 1%nat + c * u 1%nat * u 1%nat)).
        { rewrite H. destruct (Req_dec (u 1%nat) 0) as [Z|Z].
          - rewrite Z, !Rmult_0_r, !Rplus_0_r. assert (u 0%nat <> 0) by (destruct k as [|[|k]]; [auto|contradiction|lia]).
            assert (a * u 0%nat <> 0) by (apply Rmult_integral_contrapositive; split; lra).
            pose proof (Rsqr_pos_lt _ H1). unfold Rsqr in *. lra.
          - pose proof (Rsqr_pos_lt _ Z) as Q. unfold Rsqr in Q.
            pose proof (Rmult_lt_0_compat _ _ Hdet Q). pose proof (Rle_0_sqr (a * u 0%nat + b * u 1%nat)) as Q2.
            unfold Rsqr in Q2. lra. }
        apply (Rmult_lt_reg_l a); [exact Ha|]. rewrite Rmult_0_r. lra. }
    destruct Hx as [x Hx]. rewrite Hx. destruct (HS _ _ _ Hx) as [L M].
    cbn in L. destruct x as [|y0 [|y1 [|? ?]]]; try discriminate L.
    cbn in M. unfold dot, vsum in M. cbn in M. injection M as M0 M1.
    assert (D0 : a * (y0 - x0) + b * (y1 - x1) = 0) by lra.
    assert (D1 : b * (y0 - x0) + c * (y1 - x1) = 0) by lra.
    assert (Z1 : y1 - x1 = 0).
    { apply (Rmult_eq_reg_l (a * c - b * b)); [|lra]. rewrite Rmult_0_r.
      replace ((a * c - b * b) * (y1 - x1)) with (a * (b * (y0 - x0) + c * (y1 - x1)) - b * (a * (y0 - x0) + b * (y1 - x1))) by ring.
      rewrite D0, D1. ring. }
    assert (Z0 : y0 - x0 = 0).
    { apply (Rmult_eq_reg_l a); [|lra]. rewrite Rmult_0_r. rewrite Z1 in D0. lra. }
    f_equal. f_equal; [lra|]. f_equal. lra.
  Qed.

  Lemma matvec_dS b0 b1 : irls_mat_vec (glm_of FLinear) dS [b0; b1] = (Mat 2 [[2; 9]; [9; 41]], [0; 2]).
  Proof.
    unfold irls_mat_vec. cbn. rops. rewrite He. unfold dot, vsum. cbn. rops.
    apply f_equal2; [|repeat (f_equal; try lra)].
    unfold mat_mul, mmul_row, mtrans, vmul, dot, vsum, mcol, nrows. cbn. rops. apply f_equal. repeat (f_equal; try lra).
  Qed.

  Definition sq2 (a b : R) : R := a * a + b * b.
  Definition lstate (b0 b1 z0 z1 u0 u1 rho r2 s2 : R) : list R * reg R :=
    ([b0; b1], RLasso (Admm [0; 16] [z0; z1] [u0; u1] rho r2 s2)).

  Lemma mute_dS tol b0 b1 z0 z1 u0 u1 rho r2 s2 u0' u1' rho' y0 y1 n0 n1 :
    update_rho (Admm [0; 16] [z0; z1] [u0; u1] rho r2 s2) = Admm [0; 16] [z0; z1] [u0'; u1'] rho' r2 s2 ->
    0 < rho' ->
    soft_thresh1 (b0 + u0') (0 / rho') = y0 -> soft_thresh1 (b1 + u1') (16 / rho') = y1 ->
    (2 + rho') * n0 + 9 * n1 = 0 + (y0 - (u0' + (b0 - y0))) * rho' ->
    9 * n0 + (41 + rho') * n1 = 2 + (y1 - (u1' + (b1 - y1))) * rho' ->
    let r := sq2 (b0 - y0) (b1 - y1) in let s := sq2 ((y0 - z0) * rho') ((y1 - z1) * rho') in
    sqrt (INR 2) * tol <= Rmax r s ->
    mute (glm_of FLinear) solveh dS tol (lstate b0 b1 z0 z1 u0 u1 rho r2 s2) =
      Some (lstate n0 n1 y0 y1 (u0' + (b0 - y0)) (u1' + (b1 - y1)) rho' r s).
  Proof.
    intros U Hrho S0 S1 E0 E1 r s Hrs. unfold mute, lstate. cbn [fst snd]. rewrite matvec_dS.
    unfold reg_next_guess. cbn [reg_prepare]. unfold admm_prepare. rewrite U. cbn [a_l1 a_dual a_cum a_rho].
    unfold soft_thresh. cbn [vadd vdivs map map2]. rops. rewrite S0, S1.
    cbn [vsub vscale map map2]. rops.
    replace (vsum [(b0 - y0) * (b0 - y0); (b1 - y1) * (b1 - y1)]) with r by (unfold vsum, r, sq2; cbn; rops; ring).
    replace (vsum [(y0 - z0) * rho' * ((y0 - z0) * rho'); (y1 - z1) * rho' * ((y1 - z1) * rho')]) with s
      by (unfold vsum, s, sq2; cbn; rops; ring).
    cbn [reg_irls_mat reg_irls_vec a_rho a_dual a_cum nrows mrows length vconst repeat add_diag].
    match goal with |- context [solveh ?A ?v] =>
      replace A with (Mat 2 [[2 + rho'; 9]; [9; 41 + rho']]) by (cbn; rops; reflexivity);
      replace v with [0 + (y0 - (u0' + (b0 - y0))) * rho'; 2 + (y1 - (u1' + (b1 - y1))) * rho'] by (cbn; rops; reflexivity)
    end.
    rewrite (solve2 _ _ _ _ _ n0 n1); [|lra|nra|exact E0|exact E1].
    replace (reg_terminate_ok _ tol) with false; [reflexivity|].
    symmetry. cbn [reg_terminate_ok a_dual a_r_sq a_s_sq length]. unfold fsqrt_nat. rops.
    apply andb_false_iff. destruct (Rle_dec r s) as [L|L].
    - right. rewrite Rmax_right in Hrs by exact L. now apply Rltb_false.
    - left. rewrite Rmax_left in Hrs by lra. now apply Rltb_false.
  Qed.
End Step.

(** *** Affine forms in two unknowns of [-1, 1] (no source: proof devices). *)
Definition aff : Type := (Q * Q * Q)%type.
Definition ev (a : aff) (t1 t2 : R) : R := let '(c, x, y) := a in Q2R c + Q2R x * t1 + Q2R y * t2.
Definition acst (q : Q) : aff := (q, 0%Q, 0%Q).
Definition aadd (a b : aff) : aff :=
  let '(c, x, y) := a in let '(c', x', y') := b in (Qred (c + c'), Qred (x + x'), Qred (y + y'))%Q.
Definition amul (q : Q) (a : aff) : aff :=
  let '(c, x, y) := a in (Qred (q * c), Qred (q * x), Qred (q * y))%Q.
Definition asub (a b : aff) : aff := aadd a (amul (-1) b).
Definition arad (a : aff) : Q := let '(_, x, y) := a in Qred (Qabs.Qabs x + Qabs.Qabs y)%Q.
Definition amid (a : aff) : Q := fst (fst a).
Definition alo (a : aff) : Q := Qred (amid a - arad a)%Q.
Definition ahi (a : aff) : Q := Qred (amid a + arad a)%Q.
Definition aeqb (a b : aff) : bool :=
  let '(c, x, y) := a in let '(c', x', y') := b in Qeq_bool c c' && Qeq_bool x x' && Qeq_bool y y'.
Definition asubst (a f g : aff) : aff := let '(c, x, y) := a in aadd (acst c) (aadd (amul x f) (amul y g)).

Definition unit2 (t1 t2 : R) : Prop := -1 <= t1 <= 1 /\ -1 <= t2 <= 1.
Lemma Q2Rred q : Q2R (Qred q) = Q2R q.
Proof. apply Qeq_eqR, Qred_correct. Qed.
Lemma ev_cst q t1 t2 : ev (acst q) t1 t2 = Q2R q.
Proof. unfold ev, acst. rewrite RMicromega.Q2R_0. ring. Qed.
Lemma ev_add a b t1 t2 : ev (aadd a b) t1 t2 = ev a t1 t2 + ev b t1 t2.
Proof. destruct a as [[a x] y], b as [[b x'] y']. cbn [ev aadd]. rewrite !Q2Rred, !Q2R_plus. ring. Qed.
Lemma ev_mul q b t1 t2 : ev (amul q b) t1 t2 = Q2R q * ev b t1 t2.
Proof. destruct b as [[b x'] y']. cbn [ev amul]. rewrite !Q2Rred, !Q2R_mult. ring. Qed.
Lemma Q2Rm1 : Q2R (-1) = -1.
Proof. unfold Q2R. cbn. lra. Qed.
Lemma ev_sub a b t1 t2 : ev (asub a b) t1 t2 = ev a t1 t2 - ev b t1 t2.
Proof. unfold asub. rewrite ev_add, ev_mul, Q2Rm1. ring. Qed.
Lemma ev_subst a f g t1 t2 : ev (asubst a f g) t1 t2 = ev a (ev f t1 t2) (ev g t1 t2).
Proof. destruct a as [[c x] y]. cbn [asubst]. rewrite !ev_add, !ev_mul, ev_cst. cbn [ev]. ring. Qed.
Lemma aeqb_ok a b t1 t2 : aeqb a b = true -> ev a t1 t2 = ev b t1 t2.
Proof.
  destruct a as [[c x] y], b as [[c' x'] y']. cbn [ev aeqb]. rewrite !andb_true_iff, !Qeq_bool_iff.
  intros [[H1 H2] H3]. apply Qeq_eqR in H1, H2, H3. now rewrite H1, H2, H3.
Qed.
Lemma Qabs_bound q t : -1 <= t <= 1 -> - Q2R (Qabs.Qabs q) <= Q2R q * t <= Q2R (Qabs.Qabs q).
Proof.
  intros Ht. pose proof (Qle_Rle _ _ (Qabs.Qle_Qabs q)) as H1.
  pose proof (Qle_Rle _ _ (Qabs.Qle_Qabs (- q))) as H2. rewrite Qabs.Qabs_opp in H2. rewrite Q2R_opp in H2. nra.
Qed.
Lemma ev_bound a t1 t2 : unit2 t1 t2 -> Q2R (alo a) <= ev a t1 t2 <= Q2R (ahi a).
Proof.
  intros [H1 H2]. destruct a as [[c x] y]. unfold alo, ahi, amid, arad. cbn [fst].
  rewrite !Q2Rred, Q2R_plus, Q2R_minus, !Q2Rred, !Q2R_plus. cbn [ev].
  pose proof (Qabs_bound x t1 H1). pose proof (Qabs_bound y t2 H2). lra.
Qed.

Definition qlt (a b : Q) : bool := negb (Qle_bool b a).
Lemma qlt_ok a b : qlt a b = true -> Q2R a < Q2R b.
Proof.
  unfold qlt. rewrite negb_true_iff. intros H. apply Qlt_Rlt. apply Qnot_le_lt. rewrite <- Qle_bool_iff. congruence.
Qed.
Lemma qle_ok a b : Qle_bool a b = true -> Q2R a <= Q2R b.
Proof. intros H. apply Qle_Rle. now apply Qle_bool_iff. Qed.

(** Bounds on the square of a form. *)
Definition sqlo (a : aff) : Q :=
  if qlt 0 (alo a) then Qred (alo a * alo a) else if qlt (ahi a) 0 then Qred (ahi a * ahi a) else 0.
Definition sqhi (a : aff) : Q :=
  let l := Qred (alo a * alo a) in let h := Qred (ahi a * ahi a) in if Qle_bool l h then h else l.
Lemma sq_bound a t1 t2 : unit2 t1 t2 -> Q2R (sqlo a) <= ev a t1 t2 * ev a t1 t2 <= Q2R (sqhi a).
Proof.
  intros U. pose proof (ev_bound a t1 t2 U) as [L H]. set (x := ev a t1 t2) in *. split.
  - unfold sqlo. destruct (qlt 0 (alo a)) eqn:E1; [|destruct (qlt (ahi a) 0) eqn:E2].
    + apply qlt_ok in E1. rewrite RMicromega.Q2R_0 in E1. rewrite Q2Rred, Q2R_mult. nra.
    + apply qlt_ok in E2. rewrite RMicromega.Q2R_0 in E2. rewrite Q2Rred, Q2R_mult. nra.
    + rewrite RMicromega.Q2R_0. nra.
  - unfold sqhi. destruct (Qle_bool _ _) eqn:E.
    + apply qle_ok in E. rewrite !Q2Rred, !Q2R_mult in *. destruct (Rle_dec 0 x); nra.
    + assert (E' : qlt (Qred (ahi a * ahi a)) (Qred (alo a * alo a)) = true) by (unfold qlt; now rewrite E).
      apply qlt_ok in E'. rewrite !Q2Rred, !Q2R_mult in *. destruct (Rle_dec 0 x); nra.
Qed.

(** Abstract states. *)
Record ast := Ast {
  sb0 : aff; sb1 : aff; sz0 : aff; sz1 : aff; su0 : aff; su1 : aff;
  srho : Q; srl : Q; srh : Q; ssl : Q; ssh : Q }.

Definition rel (a : ast) (t1 t2 : R) (s : list R * reg R) : Prop :=
  exists r2 s2, s = lstate (ev (sb0 a) t1 t2) (ev (sb1 a) t1 t2) (ev (sz0 a) t1 t2) (ev (sz1 a) t1 t2)
                           (ev (su0 a) t1 t2) (ev (su1 a) t1 t2) (Q2R (srho a)) r2 s2 /\
    Q2R (srl a) <= r2 <= Q2R (srh a) /\ Q2R (ssl a) <= s2 <= Q2R (ssh a).

(** The rescaling of the step [update_rho]: the factor of [rho]. *)
Definition afactor (a : ast) : option Q :=
  if qlt (64 * ssh a) (srl a) then if Qle_bool (ssh a) (srl a * 64) then Some 2%Q else None
  else if Qle_bool (srh a) (64 * ssl a) then
    if qlt (srh a * 64) (ssl a) then Some (1 # 2)%Q
    else if Qle_bool (ssh a) (srl a * 64) then Some 1%Q else None
  else None.
Definition asoft (v : aff) (q : Q) : option aff :=
  if qlt q (alo v) then Some (aadd v (acst (- q)))
  else if qlt (ahi v) (- q) then Some (aadd v (acst q))
  else if Qle_bool (ahi v) q && Qle_bool (- q) (alo v) then Some (acst 0)
  else if Qeq_bool q 0 then Some v else None.
Definition asolve (rho : Q) (y0 y1 u0 u1 : aff) : aff * aff :=
  let w0 := amul rho (asub y0 u0) in
  let w1 := aadd (acst 2) (amul rho (asub y1 u1)) in
  let D := Qred (/ ((2 + rho) * (41 + rho) - 81)) in
  (amul D (asub (amul (Qred (41 + rho)) w0) (amul 9 w1)), amul D (asub (amul (Qred (2 + rho)) w1) (amul 9 w0))).
Definition astep (a : ast) : option ast :=
  match afactor a with
  | None => None
  | Some k =>
      let rho := Qred (srho a * k) in
      let u0 := amul (Qred (/ k)) (su0 a) in let u1 := amul (Qred (/ k)) (su1 a) in
      match asoft (aadd (sb0 a) u0) 0, asoft (aadd (sb1 a) u1) (Qred (16 / rho)) with
      | Some y0, Some y1 =>
          let r0 := asub (sb0 a) y0 in let r1 := asub (sb1 a) y1 in
          let s0 := amul rho (asub y0 (sz0 a)) in let s1 := amul rho (asub y1 (sz1 a)) in
          let u0' := aadd u0 r0 in let u1' := aadd u1 r1 in
          let '(n0, n1) := asolve rho y0 y1 u0' u1' in
          let rl := Qred (sqlo r0 + sqlo r1) in let sl := Qred (sqlo s0 + sqlo s1) in
          if qlt 0 rho && (qlt (4 # 10) rl || qlt (4 # 10) sl) then
            Some (Ast n0 n1 y0 y1 u0' u1' rho rl (Qred (sqhi r0 + sqhi r1)) sl (Qred (sqhi s0 + sqhi s1)))
          else None
      | _, _ => None
      end
  end.
Fixpoint asteps (n : nat) (a : ast) : option ast :=
  match n with O => Some a | S n => match astep a with Some a' => asteps n a' | None => None end end.

Lemma Q2R_nat (z : Z) : Q2R (inject_Z z) = IZR z.
Proof. unfold Q2R. cbn. field. Qed.

Section Sound.
  Context {e : MachEps}.
  Hypothesis He : mach_eps = 0.
  Variable solveh : mat R -> list R -> option (list R).
  Hypothesis HS : solver_exact solveh.
  Hypothesis HD : definite_solver solveh.
  Variable tol : R.
  Hypothesis Htol : tol <= 1 / 4.

  Lemma afactor_ok a t1 t2 k z0 z1 u0 u1 r2 s2 : unit2 t1 t2 -> afactor a = Some k ->
    Q2R (srl a) <= r2 <= Q2R (srh a) -> Q2R (ssl a) <= s2 <= Q2R (ssh a) ->
    Q2R k <> 0 /\
    update_rho (Admm [0; 16] [z0; z1] [u0; u1] (Q2R (srho a)) r2 s2) =
      Admm [0; 16] [z0; z1] [Q2R (/ k) * u0; Q2R (/ k) * u1] (Q2R (srho a * k)) r2 s2.
  Proof.
    intros _ Hk Hr Hs. unfold afactor in Hk.
    assert (S64 : Q2R 64 = 64) by apply (Q2R_nat 64).
    destruct (qlt (64 * ssh a) (srl a)) eqn:E1; [|destruct (Qle_bool (srh a) (64 * ssl a)) eqn:E2; [|discriminate]].
    - destruct (Qle_bool (ssh a) (srl a * 64)) eqn:E3; [|discriminate]. injection Hk as <-.
      apply qlt_ok in E1. apply qle_ok in E3. rewrite Q2R_mult, S64 in E1, E3.
      assert (S2 : Q2R 2 = 2) by apply (Q2R_nat 2). rewrite S2.
      split; [lra|]. unfold update_rho, fgtb. cbn [a_r_sq a_s_sq]. rops.
      replace (Rltb (8 * 8 * s2) r2) with true by (symmetry; apply Rltb_true; lra). cbn [a_r_sq a_s_sq a_l1 a_dual a_cum a_rho].
      replace (Rltb (r2 * 8 * 8) s2) with false by (symmetry; apply Rltb_false; lra). rewrite Q2R_mult, Q2R_inv, S2 by (intros X; apply Qeq_eqR in X; rewrite S2, RMicromega.Q2R_0 in X; lra).
      cbn. rops. f_equal. f_equal; [lra|]. f_equal. lra.
    - apply qle_ok in E2. rewrite Q2R_mult, S64 in E2.
      destruct (qlt (srh a * 64) (ssl a)) eqn:E3; [|destruct (Qle_bool (ssh a) (srl a * 64)) eqn:E4; [|discriminate]];
        injection Hk as <-.
      + apply qlt_ok in E3. rewrite Q2R_mult, S64 in E3.
        assert (S2 : Q2R (1 # 2) = / 2) by (unfold Q2R; cbn; lra). rewrite S2. split; [lra|].
        unfold update_rho, fgtb. cbn [a_r_sq a_s_sq]. rops.
        replace (Rltb (8 * 8 * s2) r2) with false by (symmetry; apply Rltb_false; lra). cbn [a_r_sq a_s_sq a_l1 a_dual a_cum a_rho].
        replace (Rltb (r2 * 8 * 8) s2) with true by (symmetry; apply Rltb_true; lra).
        rewrite Q2R_mult, Q2R_inv, S2 by (intros X; apply Qeq_eqR in X; rewrite S2, RMicromega.Q2R_0 in X; lra).
        cbn. rops. f_equal. f_equal; [field|]. f_equal. field.
      + apply qle_ok in E4. rewrite Q2R_mult, S64 in E4.
        assert (S2 : Q2R 1 = 1) by apply (Q2R_nat 1). rewrite S2. split; [lra|].
        unfold update_rho, fgtb. cbn [a_r_sq a_s_sq]. rops.
        replace (Rltb (8 * 8 * s2) r2) with false by (symmetry; apply Rltb_false; lra). cbn [a_r_sq a_s_sq a_l1 a_dual a_cum a_rho].
        replace (Rltb (r2 * 8 * 8) s2) with false by (symmetry; apply Rltb_false; lra).
        rewrite Q2R_mult, Q2R_inv, S2 by (intros X; apply Qeq_eqR in X; rewrite S2, RMicromega.Q2R_0 in X; lra).
        f_equal; [|lra]. f_equal; [lra|]. f_equal. lra.
  Qed.

  Lemma asoft_ok v q y t1 t2 : unit2 t1 t2 -> 0 <= Q2R q -> asoft v q = Some y ->
    soft_thresh1 (ev v t1 t2) (Q2R q) = ev y t1 t2.
  Proof.
    intros U Hq H. pose proof (ev_bound v t1 t2 U) as B. unfold asoft in H. apply soft_W; [exact Hq|].
    destruct (qlt q (alo v)) eqn:E1; [|destruct (qlt (ahi v) (- q)) eqn:E2;
      [|destruct (Qle_bool (ahi v) q && Qle_bool (- q) (alo v)) eqn:E3; [|destruct (Qeq_bool q 0) eqn:E4; [|discriminate]]]];
      injection H as <-.
    - apply qlt_ok in E1. left. rewrite ev_add, ev_cst, Q2R_opp. split; lra.
    - apply qlt_ok in E2. rewrite Q2R_opp in E2. right; left. rewrite ev_add, ev_cst. split; lra.
    - apply andb_true_iff in E3. destruct E3 as [E3 E4]. apply qle_ok in E3, E4. rewrite Q2R_opp in E4.
      right; right. rewrite ev_cst, RMicromega.Q2R_0. split; [|reflexivity]. apply Rabs_le. lra.
    - apply Qeq_bool_iff, Qeq_eqR in E4. rewrite RMicromega.Q2R_0 in E4. rewrite E4.
      destruct (Rtotal_order (ev v t1 t2) 0) as [L|[L|L]].
      + right; left. split; lra.
      + right; right. rewrite L, Rabs_R0. split; lra.
      + left. split; lra.
  Qed.

  Lemma asolve_ok rho y0 y1 u0 u1 n0 n1 t1 t2 : 0 < Q2R rho -> asolve rho y0 y1 u0 u1 = (n0, n1) ->
    let E x := ev x t1 t2 in
    (2 + Q2R rho) * E n0 + 9 * E n1 = 0 + (E y0 - E u0) * Q2R rho /\
    9 * E n0 + (41 + Q2R rho) * E n1 = 2 + (E y1 - E u1) * Q2R rho.
  Proof.
    intros Hr H E. replace n0 with (fst (asolve rho y0 y1 u0 u1)) by now rewrite H.
    replace n1 with (snd (asolve rho y0 y1 u0 u1)) by now rewrite H. clear H. unfold E, asolve. cbv zeta. cbn [fst snd].
    repeat (rewrite ?ev_mul, ?ev_sub, ?ev_add, ?ev_cst, ?Q2Rred).
    assert (S2 : Q2R 2 = 2) by apply (Q2R_nat 2). assert (S9 : Q2R 9 = 9) by apply (Q2R_nat 9).
    assert (S41 : Q2R 41 = 41) by apply (Q2R_nat 41). assert (S81 : Q2R 81 = 81) by apply (Q2R_nat 81).
    assert (D : Q2R ((2 + rho) * (41 + rho) - 81) = (2 + Q2R rho) * (41 + Q2R rho) - 81)
      by (rewrite Q2R_minus, Q2R_mult, !Q2R_plus, S2, S41, S81; reflexivity).
    assert (P : 0 < (2 + Q2R rho) * (41 + Q2R rho) - 81) by nra.
    rewrite Q2R_inv by (intros X; apply Qeq_eqR in X; rewrite D, RMicromega.Q2R_0 in X; lra).
    rewrite D, !Q2R_plus, S2, S9, S41. split; field; lra.
  Qed.

  Lemma astep_ok a a' t1 t2 s : unit2 t1 t2 -> astep a = Some a' -> rel a t1 t2 s ->
    exists s', mute (glm_of FLinear) solveh dS tol s = Some s' /\ rel a' t1 t2 s'.
  Proof.
    intros U H (r2 & s2 & -> & Hr & Hs). unfold astep in H.
    destruct (afactor a) as [k|] eqn:Ek; [|discriminate].
    destruct (afactor_ok a t1 t2 k (ev (sz0 a) t1 t2) (ev (sz1 a) t1 t2) (ev (su0 a) t1 t2) (ev (su1 a) t1 t2)
      r2 s2 U Ek Hr Hs) as [Hk Hupd].
    set (rho := Qred (srho a * k)) in *. set (u0 := amul (Qred (/ k)) (su0 a)) in *.
    set (u1 := amul (Qred (/ k)) (su1 a)) in *.
    destruct (asoft (aadd (sb0 a) u0) 0) as [y0|] eqn:E0; [|discriminate].
    destruct (asoft (aadd (sb1 a) u1) (Qred (16 / rho))) as [y1|] eqn:E1; [|discriminate].
    destruct (asolve rho y0 y1 _ _) as [n0 n1] eqn:En.
    destruct (qlt 0 rho && _) eqn:Eg; [|discriminate]. injection H as <-.
    apply andb_true_iff in Eg. destruct Eg as [Erho Eg]. apply qlt_ok in Erho. rewrite RMicromega.Q2R_0 in Erho.
    assert (Hrho : Q2R (srho a * k) = Q2R rho) by (unfold rho; now rewrite Q2Rred).
    assert (HT : Q2R (16 / rho) = 16 / Q2R rho).
    { unfold Qdiv. rewrite Q2R_mult, Q2R_inv by (intros X; apply Qeq_eqR in X; rewrite RMicromega.Q2R_0 in X; lra).
      replace (Q2R 16) with 16 by (symmetry; apply (Q2R_nat 16)). reflexivity. }
    assert (Hp : 0 < 16 / Q2R rho) by (apply Rdiv_lt_0_compat; lra).
    pose proof (asoft_ok _ _ _ t1 t2 U ltac:(rewrite RMicromega.Q2R_0; lra) E0) as S0.
    pose proof (asoft_ok _ _ _ t1 t2 U ltac:(rewrite Q2Rred, HT; lra) E1) as S1.
    rewrite ev_add in S0, S1. rewrite Q2Rred, HT in S1. rewrite RMicromega.Q2R_0 in S0.
    destruct (asolve_ok _ _ _ _ _ _ _ t1 t2 Erho En) as [N0 N1].
    rewrite !ev_add, !ev_sub in N0, N1.
    rewrite Hrho in Hupd.
    assert (U0 : Q2R (/ k) * ev (su0 a) t1 t2 = ev u0 t1 t2) by (unfold u0; now rewrite ev_mul, Q2Rred).
    assert (U1 : Q2R (/ k) * ev (su1 a) t1 t2 = ev u1 t1 t2) by (unfold u1; now rewrite ev_mul, Q2Rred).
    rewrite U0, U1 in Hupd.
    pose proof (sq_bound (asub (sb0 a) y0) t1 t2 U) as Q0. pose proof (sq_bound (asub (sb1 a) y1) t1 t2 U) as Q1.
    pose proof (sq_bound (amul rho (asub y0 (sz0 a))) t1 t2 U) as Q2. pose proof (sq_bound (amul rho (asub y1 (sz1 a))) t1 t2 U) as Q3.
    rewrite !ev_mul in Q2, Q3. rewrite !ev_sub in Q0, Q1, Q2, Q3.
    assert (RB : Q2R (Qred (sqlo (asub (sb0 a) y0) + sqlo (asub (sb1 a) y1))) <=
      sq2 (ev (sb0 a) t1 t2 - ev y0 t1 t2) (ev (sb1 a) t1 t2 - ev y1 t1 t2) <=
      Q2R (Qred (sqhi (asub (sb0 a) y0) + sqhi (asub (sb1 a) y1)))) by (rewrite !Q2Rred, !Q2R_plus; unfold sq2; lra).
    assert (SB : Q2R (Qred (sqlo (amul rho (asub y0 (sz0 a))) + sqlo (amul rho (asub y1 (sz1 a))))) <=
      sq2 ((ev y0 t1 t2 - ev (sz0 a) t1 t2) * Q2R rho) ((ev y1 t1 t2 - ev (sz1 a) t1 t2) * Q2R rho) <=
      Q2R (Qred (sqhi (amul rho (asub y0 (sz0 a))) + sqhi (amul rho (asub y1 (sz1 a))))))
      by (rewrite !Q2Rred, !Q2R_plus; unfold sq2; lra).
    eexists. split.
    - apply (mute_dS He solveh HS HD) with (1 := Hupd); [exact Erho| | |exact N0|exact N1|].
      + rewrite <- S0. f_equal. unfold Rdiv. ring.
      + exact S1.
      + assert (sqrt (INR 2) * tol <= 4 / 10).
        { assert (sqrt (INR 2) <= 16 / 10).
          { rewrite <- (sqrt_square (16 / 10)) by lra. apply sqrt_le_1_alt. cbn. lra. }
          pose proof (sqrt_pos (INR 2)). nra. }
        assert (T4 : Q2R (4 # 10) = 4 / 10) by (unfold Q2R; cbn; lra).
        apply orb_true_iff in Eg. destruct Eg as [Eg|Eg]; apply qlt_ok in Eg; rewrite T4 in Eg.
        * eapply Rle_trans; [|apply Rmax_l]. lra.
        * eapply Rle_trans; [|apply Rmax_r]. lra.
    - eexists _, _. split; [|split; [exact RB|exact SB]]. cbn [sb0 sb1 sz0 sz1 su0 su1 srho].
      rewrite !ev_add, !ev_sub. reflexivity.
  Qed.

  Lemma asteps_ok n : forall a a' t1 t2 s, unit2 t1 t2 -> asteps n a = Some a' -> rel a t1 t2 s ->
    exists s', mutes (glm_of FLinear) solveh dS tol n s = Some s' /\ rel a' t1 t2 s'.
  Proof.
    induction n as [|n IH]; intros a a' t1 t2 s U H Hr; cbn [mutes asteps] in H |- *.
    - injection H as <-. eauto.
    - destruct (astep a) as [a1|] eqn:E; [|discriminate].
      destruct (astep_ok a a1 t1 t2 s U E Hr) as (s1 & -> & R1). eapply IH; eauto.
  Qed.

  (** The states of a box: the shrunken coefficients are within [h0], [h1] of [c0], [c1], the
      accumulated residuals are 0 and [sgn] times 16 over [rho]. *)
  Definition box (rho sgn c0 c1 h0 h1 sl sh : Q) : ast :=
    let z0 := (c0, h0, 0%Q) in let z1 := (c1, 0%Q, h1) in let u1 := acst (Qred (sgn * 16 / rho)) in
    let '(b0, b1) := asolve rho z0 z1 (acst 0) u1 in
    Ast b0 b1 z0 z1 (acst 0) u1 rho 0 0 sl sh.
  (** Every state of [a] is a state of [b]. *)
  Definition covers (c0 c1 h0 h1 : Q) (b a : ast) : bool :=
    let f := amul (Qred (/ h0)) (aadd (sz0 a) (acst (- c0))) in
    let g := amul (Qred (/ h1)) (aadd (sz1 a) (acst (- c1))) in
    let inu x := Qle_bool (-1) (alo x) && Qle_bool (ahi x) 1 in
    inu f && inu g &&
    forallb (fun p => aeqb (fst p a) (asubst (snd p b) f g))
      [(sb0, sb0); (sb1, sb1); (sz0, sz0); (sz1, sz1); (su0, su0); (su1, su1)] &&
    Qeq_bool (srho a) (srho b) && Qle_bool (srl b) (srl a) && Qle_bool (srh a) (srh b) &&
    Qle_bool (ssl b) (ssl a) && Qle_bool (ssh a) (ssh b).
  Lemma covers_ok c0 c1 h0 h1 b a t1 t2 s : unit2 t1 t2 -> covers c0 c1 h0 h1 b a = true -> rel a t1 t2 s ->
    exists t1' t2', unit2 t1' t2' /\ rel b t1' t2' s.
  Proof.
    intros U H (r2 & s2 & -> & Hr & Hs). unfold covers in H.
    set (f := amul _ (aadd (sz0 a) _)) in H. set (g := amul _ (aadd (sz1 a) _)) in H.
    cbn [forallb fst snd] in H. rewrite !andb_true_iff in H.
    destruct H as (((((((F & G) & (Q1 & Q2 & Q3 & Q4 & Q5 & Q6 & _)) & Rho) & R1) & R2) & S1) & S2).
    exists (ev f t1 t2), (ev g t1 t2).
    assert (V1 : Q2R 1 = 1) by apply (Q2R_nat 1).
    split.
    - destruct F as [F1 F2], G as [G1 G2]. apply qle_ok in F1, F2, G1, G2. rewrite Q2Rm1 in *. rewrite V1 in *.
      pose proof (ev_bound f t1 t2 U). pose proof (ev_bound g t1 t2 U). split; lra.
    - exists r2, s2. apply Qeq_bool_iff, Qeq_eqR in Rho. rewrite <- Rho.
      apply (aeqb_ok _ _ t1 t2) in Q1, Q2, Q3, Q4, Q5, Q6. rewrite ev_subst in Q1, Q2, Q3, Q4, Q5, Q6.
      rewrite <- Q1, <- Q2, <- Q3, <- Q4, <- Q5, <- Q6.
      apply qle_ok in R1, R2, S1, S2. split; [reflexivity|]. lra.
  Qed.
End Sound.

Definition bstart : ast := Ast (acst (-9)) (acst 2) (acst 0) (acst 0) (acst 0) (acst 0) 1 0 0 0 0.
Definition B34 : ast := box 2 1 (-9782057 # 1000000) (1785786 # 1000000) (1 # 1000000) (1 # 1000000) 12 13.
Definition B59 : ast := box 1 1 (-51263446 # 1000000) (10867279 # 1000000) (1 # 1000) (1 # 1000) 25 26.
Definition B86 : ast := box (1 # 16) 1 (-9751 # 1000) (1816 # 1000) (1 # 100) (1 # 100) 2 3.
Definition leads (n : nat) (a b : ast) (c0 c1 h0 h1 : Q) : bool :=
  match asteps n a with Some a' => covers c0 c1 h0 h1 b a' | None => false end.
Lemma to34 : leads 35 bstart B34 (-9782057 # 1000000) (1785786 # 1000000) (1 # 1000000) (1 # 1000000) = true.
Proof. vm_compute. reflexivity. Qed.
Lemma to59 : leads 25 B34 B59 (-51263446 # 1000000) (10867279 # 1000000) (1 # 1000) (1 # 1000) = true.
Proof. vm_compute. reflexivity. Qed.
Lemma to86 : leads 27 B59 B86 (-9751 # 1000) (1816 # 1000) (1 # 100) (1 # 100) = true.
Proof. vm_compute. reflexivity. Qed.
Lemma cycle86 : leads 23 B86 B86 (-9751 # 1000) (1816 # 1000) (1 # 100) (1 # 100) = true.
Proof. vm_compute. reflexivity. Qed.

Section Never.
  Context {e : MachEps}.
  Hypothesis He : mach_eps = 0.
  Variable solveh : mat R -> list R -> option (list R).
  Hypothesis HS : solver_exact solveh.
  Hypothesis HD : definite_solver solveh.
  Variable tol : R.
  Hypothesis Htol : tol <= 1 / 4.
  Notation go := (mutes (glm_of FLinear) solveh dS tol).

  Definition inside (a : ast) (s : list R * reg R) : Prop := exists t1 t2, unit2 t1 t2 /\ rel a t1 t2 s.
  Lemma leads_ok n a b c0 c1 h0 h1 s : leads n a b c0 c1 h0 h1 = true -> inside a s ->
    exists s', go n s = Some s' /\ inside b s'.
  Proof.
    unfold leads. destruct (asteps n a) as [a'|] eqn:E; [|discriminate]. intros H (t1 & t2 & U & Hr).
    destruct (asteps_ok He solveh HS HD tol Htol n a a' t1 t2 s U E Hr) as (s' & Hs & Hr').
    exists s'. split; [exact Hs|]. exact (covers_ok _ _ _ _ b a' t1 t2 s' U H Hr').
  Qed.
  Lemma go_prefix a b s s' : go (a + b) s = Some s' -> exists s1, go a s = Some s1.
  Proof. rewrite mutes_add. destruct (go a s); [eauto|discriminate]. Qed.
  Lemma cycle_forever : forall k s, inside B86 s -> exists s', go k s = Some s'.
  Proof.
    intros k. induction k as [k IH] using (well_founded_induction lt_wf). intros s Hs.
    destruct (leads_ok _ _ _ _ _ _ _ s cycle86 Hs) as (s' & G & I).
    destruct (le_lt_dec 23 k) as [Hk|Hk].
    - replace k with (23 + (k - 23))%nat by lia. rewrite mutes_add, G. apply IH; [lia|exact I].
    - replace 23%nat with (k + (23 - k))%nat in G by lia. now apply go_prefix in G.
  Qed.
  Lemma start_forever k s : inside bstart s -> exists s', go k s = Some s'.
  Proof.
    intros Hs. destruct (leads_ok _ _ _ _ _ _ _ s to34 Hs) as (s1 & G1 & I1).
    destruct (leads_ok _ _ _ _ _ _ _ s1 to59 I1) as (s2 & G2 & I2).
    destruct (leads_ok _ _ _ _ _ _ _ s2 to86 I2) as (s3 & G3 & I3).
    destruct (cycle_forever k s3 I3) as (s4 & G4).
    assert (G : go (k + (35 + (25 + 27))) s = Some s4).
    { replace (k + (35 + (25 + 27)))%nat with (35 + (25 + (27 + k)))%nat by lia.
      rewrite mutes_add, G1, mutes_add, G2, mutes_add, G3. exact G4. }
    now apply go_prefix in G.
  Qed.

  Lemma start_dS : start_guess (glm_of FLinear) solveh dS (oSt tol) = [-9; 2].
  Proof.
    unfold start_guess, init_guess. cbn [oSt o_init].
    assert (M : mat_mul (x_conj dS) (d_x dS) = Mat 2 [[2; 9]; [9; 41]]).
    { cbn. unfold mat_mul, mtrans, dot, vsum, mcol, nrows. cbn. rops. apply f_equal. repeat (f_equal; try lra). }
    assert (V : mat_vec (x_conj dS) (init_link_y (glm_of FLinear) dS) = [0; 1]).
    { unfold init_link_y, y_mean. cbn. unfold mtrans, dot, vsum, mcol, nrows. cbn. rops. repeat (f_equal; try lra). }
    rewrite M, V. rewrite (solve2 solveh HS HD 2 9 41 0 1 (-9) 2); [reflexivity|lra|lra|lra|lra].
  Qed.

  Lemma never_lemma sfuel m : exists h,
    regression (glm_of FLinear) solveh sfuel dS (apply_opt (oSt tol) (SetMaxIter m)) = Err (MaxIter m h) /\
    length h = S m.
  Proof.
    apply (regression_mute (glm_of FLinear) solveh sfuel dS tol (oSt tol) (RLasso (admm_from_diag [0; 16]))).
    - reflexivity.
    - exact I.
    - unfold get_reg. cbn. rops. rewrite (proj2 (Rltb_true 0 16)), (proj2 (Rltb_false 0 0)) by lra. reflexivity.
    - rewrite start_dS. reflexivity.
    - intros k. apply start_forever. rewrite start_dS. exists 0, 0. split; [split; lra|].
      exists 0, 0. cbn [bstart sb0 sb1 sz0 sz1 su0 su1 srho srl srh ssl ssh]. rewrite !ev_cst, RMicromega.Q2R_0.
      replace (Q2R (-9)) with (-9) by (symmetry; apply (Q2R_nat (-9))). replace (Q2R 2) with 2 by (symmetry; apply (Q2R_nat 2)).
      replace (Q2R 1) with 1 by (symmetry; apply (Q2R_nat 1)). split; [reflexivity|lra].
  Qed.
End Never.
