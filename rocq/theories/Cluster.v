(** A concave continuous function of several variables that is bounded above and decreases without
    bound in every direction attains its maximum.  No choice principle is used. *)
From Coq Require Import Arith Lia Reals Lra Psatz Classical.
From Verif Require Import SpecData Lin.
Local Open Scope R_scope.

Lemma small_inv eps : 0 < eps -> exists N, forall n, (N <= n)%nat -> / (INR n + 1) < eps.
Proof.
  intros H. destruct (archimed_cor1 eps H) as (N & H1 & H2). exists N. intros n Hn.
  apply Rle_lt_trans with (/ INR N); [|assumption].
  apply Rinv_le_contravar; [now apply lt_0_INR|]. apply le_INR in Hn. lra.
Qed.

Lemma INR_above t : exists n, t < INR n.
Proof.
  destruct (Rlt_dec 0 t) as [H|H].
  - destruct (archimed_cor1 (/ t) (Rinv_0_lt_compat t H)) as (N & H1 & H2). exists N.
    apply lt_0_INR in H2. apply Rinv_lt_contravar in H1; [now rewrite !Rinv_involutive in H1 by lra|].
    apply Rmult_lt_0_compat; now apply Rinv_0_lt_compat.
  - exists 1%nat. cbn. lra.
Qed.

Lemma inv_pos n : 0 < / (INR n + 1).
Proof. apply Rinv_0_lt_compat. pose proof (pos_INR n). lra. Qed.

Lemma inv_anti n m : (n <= m)%nat -> / (INR m + 1) <= / (INR n + 1).
Proof. intros H. apply Rinv_le_contravar; [pose proof (pos_INR n); lra|]. apply le_INR in H. lra. Qed.

(** ** Cluster points of decreasing sequences of nonempty bounded sets *)
Definition antitone (S : nat -> (nat -> R) -> Prop) : Prop :=
  forall n m b, (n <= m)%nat -> S m b -> S n b.

Lemma cluster1 S j B : antitone S -> (forall n, exists b, S n b) ->
  (forall b, S O b -> Rabs (b j) <= B) ->
  exists l, forall eps n, 0 < eps -> exists b, S n b /\ Rabs (b j - l) < eps.
Proof.
  intros HA HI HB.
  pose (E := fun t => exists n, forall b, S n b -> t <= b j).
  assert (Hb : bound E).
  { exists B. intros t (n & Hn). destruct (HI n) as (b & Hb). specialize (Hn b Hb).
    assert (Z : S O b) by (apply (HA O n); [lia|assumption]).
    specialize (HB b Z). pose proof (Rle_abs (b j)). lra. }
  assert (He : exists t, E t).
  { exists (- B). exists O. intros b Z. specialize (HB b Z). pose proof (Rle_abs (- b j)) as Q.
    rewrite Rabs_Ropp in Q. lra. }
  destruct (completeness E Hb He) as (l & Hu & Hl).
  exists l. intros eps n Heps.
  assert (X : exists t, E t /\ l - eps < t).
  { apply NNPP. intros N. assert (l <= l - eps); [|lra]. apply Hl. intros t Ht.
    destruct (Rle_lt_dec t (l - eps)); [assumption|]. exfalso. apply N. exists t. auto. }
  destruct X as (t & (n0 & Ht) & Hlt).
  assert (Y : exists b, S (Nat.max n n0) b /\ b j < l + eps / 2).
  { apply NNPP. intros N. assert (l + eps / 2 <= l); [|lra]. apply Hu. exists (Nat.max n n0).
    intros b Hbb. destruct (Rle_lt_dec (l + eps / 2) (b j)); [assumption|]. exfalso. apply N. exists b. auto. }
  destruct Y as (b & Hbb & Hlt2). exists b. split; [apply (HA n (Nat.max n n0)); [lia|assumption]|].
  assert (t <= b j) by (apply Ht; apply (HA n0 (Nat.max n n0)); [lia|assumption]).
  apply Rabs_def1; lra.
Qed.

Lemma cluster p B : forall S, antitone S -> (forall n, exists b, S n b) ->
  (forall b k, (k < p)%nat -> S O b -> Rabs (b k) <= B) ->
  exists l : nat -> R, forall eps n, 0 < eps ->
    exists b, S n b /\ forall k, (k < p)%nat -> Rabs (b k - l k) < eps.
Proof.
  induction p as [|p IH]; intros S HA HI HB.
  - exists (fun _ => 0). intros eps n _. destruct (HI n) as (b & Hb). exists b. split; [assumption|]. intros; lia.
  - destruct (cluster1 S p B HA HI (fun b => HB b p (Nat.lt_succ_diag_r p))) as (lp & Hlp).
    destruct (IH (fun n b => S n b /\ Rabs (b p - lp) < / (INR n + 1))) as (l & Hl).
    + intros n m b Hnm (H1 & H2). split; [now apply (HA n m)|]. pose proof (inv_anti n m Hnm). lra.
    + intros n. destruct (Hlp (/ (INR n + 1)) n (inv_pos n)) as (b & H1 & H2). exists b. auto.
    + intros b k Hk (H1 & _). apply HB; [lia|assumption].
    + exists (fun k => if k =? p then lp else l k). intros eps n Heps.
      destruct (small_inv eps Heps) as (N & HN).
      destruct (Hl eps (Nat.max n N) Heps) as (b & (H1 & H2) & H3). exists b.
      split; [apply (HA n (Nat.max n N)); [lia|assumption]|].
      intros k Hk. destruct (Nat.eqb_spec k p) as [->|Hne].
      * assert (Z : / (INR (Nat.max n N) + 1) < eps) by (apply HN; lia). lra.
      * apply H3. lia.
Qed.

(** ** The maximum *)
(** Continuity in the first [p] coordinates. *)
Definition contp (p : nat) (F : (nat -> R) -> R) : Prop :=
  forall b eps, 0 < eps -> exists del, 0 < del /\
    forall c, (forall k, (k < p)%nat -> Rabs (c k - b k) < del) -> Rabs (F c - F b) < eps.

Definition concave (F : (nat -> R) -> R) : Prop :=
  forall a b t, 0 <= t <= 1 -> t * F a + (1 - t) * F b <= F (fun k => t * a k + (1 - t) * b k).

Definition norm1 (p : nat) (b : nat -> R) : R := sumn p (fun k => Rabs (b k)).

Lemma norm1_coord p b k : (k < p)%nat -> Rabs (b k) <= norm1 p b.
Proof. intros Hk. apply (sumn_ge_term p (fun k => Rabs (b k)) k); [intros; apply Rabs_pos|assumption]. Qed.

Lemma norm1_scal p c b : norm1 p (fun k => c * b k) = Rabs c * norm1 p b.
Proof. unfold norm1. rewrite <- sumn_scal. apply sumn_ext. intros. apply Rabs_mult. Qed.

Section Max.
  Variables (p : nat) (F : (nat -> R) -> R) (U : R).
  Hypothesis Hcont : contp p F.
  Hypothesis Hconc : concave F.
  Hypothesis Hup : forall b, F b <= U.
  Hypothesis Hdir : forall u, (exists k, (k < p)%nat /\ u k <> 0) ->
    forall M, exists t, 0 < t /\ F (fun k => t * u k) < M.

  Lemma cont_ext a b : (forall k, (k < p)%nat -> a k = b k) -> F a = F b.
  Proof.
    intros H. destruct (Req_dec (F a) (F b)) as [E|N]; [assumption|exfalso].
    assert (Hp : 0 < Rabs (F a - F b)) by (apply Rabs_pos_lt; lra).
    destruct (Hcont b _ Hp) as (del & Hd & HF).
    specialize (HF a). assert (Rabs (F a - F b) < Rabs (F a - F b)); [|lra].
    apply HF. intros k Hk. rewrite H by assumption. replace (b k - b k) with 0 by ring. now rewrite Rabs_R0.
  Qed.

  Lemma level_bounded c : exists B, forall b, c <= F b -> norm1 p b <= B.
  Proof.
    apply NNPP. intros HN.
    assert (HS : forall n : nat, exists b, c <= F b /\ INR n + 1 < norm1 p b).
    { intros n. apply NNPP. intros N. apply HN. exists (INR n + 1). intros b Hb.
      destruct (Rle_lt_dec (norm1 p b) (INR n + 1)); [assumption|]. exfalso. apply N. exists b. auto. }
    pose (S := fun (n : nat) (u : nat -> R) =>
      exists s, INR n + 1 < s /\ c <= F (fun k => s * u k) /\ norm1 p u = 1).
    destruct (cluster p 1 S) as (l & Hl).
    - intros n m u Hnm (s & H1 & H2 & H3). exists s. repeat split; auto. apply le_INR in Hnm. lra.
    - intros n. destruct (HS n) as (b & H1 & H2). exists (fun k => / norm1 p b * b k), (norm1 p b).
      pose proof (pos_INR n). split; [assumption|]. split.
      + rewrite (cont_ext _ b); [assumption|]. intros k _. field. lra.
      + rewrite norm1_scal, Rabs_pos_eq; [field; lra|]. left. apply Rinv_0_lt_compat. lra.
    - intros b k Hk (s & _ & _ & H). pose proof (norm1_coord p b k Hk). lra.
    - assert (Hnl : exists k, (k < p)%nat /\ l k <> 0).
      { apply NNPP. intros N.
        assert (Z : forall k, (k < p)%nat -> l k = 0).
        { intros k Hk. destruct (Req_dec (l k) 0); [assumption|]. exfalso. apply N. exists k. auto. }
        assert (Hp0 : 0 < / (2 * (INR p + 1))) by (apply Rinv_0_lt_compat; pose proof (pos_INR p); lra).
        destruct (Hl _ O Hp0) as (u & (s & _ & _ & Hu) & Hk).
        assert (Q : norm1 p u <= sumn p (fun _ => / (2 * (INR p + 1)))).
        { apply sumn_le. intros k Hkp. specialize (Hk k Hkp). rewrite (Z k Hkp), Rminus_0_r in Hk. lra. }
        rewrite sumn_const, Hu in Q. pose proof (pos_INR p).
        assert (INR p * / (2 * (INR p + 1)) < 1); [|lra].
        apply (Rmult_lt_reg_r (2 * (INR p + 1))); [lra|]. rewrite Rmult_assoc, Rinv_l by lra. lra. }
      pose (F0 := F (fun _ => 0)). pose (m := Rmin F0 c).
      destruct (Hdir l Hnl (m - 1)) as (t & Ht & HF).
      destruct (Hcont (fun k => t * l k) (1 / 2) ltac:(lra)) as (del & Hdel & HC).
      destruct (INR_above t) as (n & Hn).
      assert (Hq : 0 < del / t) by (apply Rdiv_lt_0_compat; assumption).
      destruct (Hl _ n Hq) as (u & (s & Hs & Hsu & _) & Hk).
      assert (Hst : 0 < s) by (pose proof (pos_INR n); lra).
      assert (HC' : Rabs (F (fun k => t * u k) - F (fun k => t * l k)) < 1 / 2).
      { apply HC. intros k Hkp. replace (t * u k - t * l k) with (t * (u k - l k)) by ring.
        rewrite Rabs_mult, (Rabs_pos_eq t) by lra. specialize (Hk k Hkp).
        apply (Rmult_lt_compat_l t) in Hk; [|assumption]. replace (t * (del / t)) with del in Hk by (field; lra). assumption. }
      assert (HL : m <= F (fun k => t * u k)).
      { assert (Hts : 0 <= t / s <= 1).
        { split; [apply Rle_mult_inv_pos; lra|]. apply (Rmult_le_reg_r s); [assumption|].
          unfold Rdiv. rewrite Rmult_assoc, Rinv_l by lra. lra. }
        pose proof (Hconc (fun k => s * u k) (fun _ => 0) (t / s) Hts) as Q.
        rewrite (cont_ext (fun k => t * u k) (fun k => t / s * (s * u k) + (1 - t / s) * 0)).
        2: { intros k _. field. lra. }
        eapply Rle_trans; [|exact Q]. fold F0.
        assert (m <= F0) by apply Rmin_l. assert (m <= c) by apply Rmin_r. nra. }
      apply Rabs_def2 in HC'. lra.
  Qed.

  Lemma max_exists : exists b, forall c, F c <= F b.
  Proof.
    pose (E := fun v => exists b, v = F b).
    assert (Hb : bound E) by (exists U; intros v (b & ->); apply Hup).
    destruct (completeness E Hb (ex_intro _ _ (ex_intro _ (fun _ => 0) eq_refl))) as (M & Hu & Hl).
    destruct (level_bounded (M - 1)) as (B & HB).
    destruct (cluster p B (fun n b => M - / (INR n + 1) < F b)) as (l & Hc).
    - intros n m b Hnm H. pose proof (inv_anti n m Hnm). lra.
    - intros n. apply NNPP. intros N. pose proof (inv_pos n). assert (M <= M - / (INR n + 1)); [|lra].
      apply Hl. intros v (b & ->). destruct (Rle_lt_dec (F b) (M - / (INR n + 1))); [assumption|].
      exfalso. apply N. exists b. assumption.
    - intros b k Hk H. cbn in H. rewrite Rplus_0_l, Rinv_1 in H.
      pose proof (norm1_coord p b k Hk). specialize (HB b ltac:(lra)). lra.
    - exists l. intros c. assert (HM : F c <= M) by (apply Hu; exists c; reflexivity).
      apply Rle_trans with M; [assumption|].
      apply Rnot_lt_le. intros Hlt.
      assert (He : 0 < (M - F l) / 2) by lra.
      destruct (Hcont l _ He) as (del & Hd & HF). destruct (small_inv _ He) as (N & HN).
      destruct (Hc del N Hd) as (b & H1 & H2). specialize (HF b H2). apply Rabs_def2 in HF.
      specialize (HN N (Nat.le_refl N)). lra.
  Qed.
End Max.

(** ** Continuity of sums and compositions *)
Section Cont.
  Variable p : nat.

  Lemma contp_const c : contp p (fun _ => c).
  Proof. intros b eps He. exists 1. split; [lra|]. intros. rewrite Rminus_diag_eq, Rabs_R0 by reflexivity. assumption. Qed.

  Lemma contp_coord k : (k < p)%nat -> contp p (fun b => b k).
  Proof. intros Hk b eps He. exists eps. split; [assumption|]. intros c Hc. now apply Hc. Qed.

  Lemma contp_add F G : contp p F -> contp p G -> contp p (fun b => F b + G b).
  Proof.
    intros HF HG b eps He. destruct (HF b (eps / 2) ltac:(lra)) as (d1 & H1 & K1).
    destruct (HG b (eps / 2) ltac:(lra)) as (d2 & H2 & K2).
    exists (Rmin d1 d2). split; [now apply Rmin_pos|]. intros c Hc.
    assert (A1 : Rabs (F c - F b) < eps / 2).
    { apply K1. intros k Hk. pose proof (Rmin_l d1 d2). specialize (Hc k Hk). lra. }
    assert (A2 : Rabs (G c - G b) < eps / 2).
    { apply K2. intros k Hk. pose proof (Rmin_r d1 d2). specialize (Hc k Hk). lra. }
    apply Rabs_def2 in A1, A2. apply Rabs_def1; lra.
  Qed.

  Lemma contp_comp (g : R -> R) F : continuity g -> contp p F -> contp p (fun b => g (F b)).
  Proof.
    intros Hg HF b eps He. destruct (Hg (F b) eps He) as (a & Ha & K).
    destruct (HF b a Ha) as (del & Hd & H). exists del. split; [assumption|]. intros c Hc.
    destruct (Req_dec (F c) (F b)) as [E|N].
    - rewrite E. rewrite Rminus_diag_eq, Rabs_R0 by reflexivity. assumption.
    - apply (K (F c)). split; [split; [exact I|auto]|]. apply H. assumption.
  Qed.

  Lemma contp_scal a F : contp p F -> contp p (fun b => a * F b).
  Proof.
    intros H. apply (contp_comp (fun x => a * x)); [|assumption].
    apply continuity_scal. apply derivable_continuous, derivable_id.
  Qed.

  Lemma contp_sumn n (F : nat -> (nat -> R) -> R) : (forall i, (i < n)%nat -> contp p (F i)) ->
    contp p (fun b => sumn n (fun i => F i b)).
  Proof.
    induction n as [|n IH]; intros H; cbn; [apply contp_const|].
    apply contp_add; [apply IH; intros; apply H; lia|apply H; lia].
  Qed.
End Cont.

(** ** Concavity of sums *)
Lemma concave_sum n (F : nat -> (nat -> R) -> R) : (forall i, (i < n)%nat -> concave (F i)) ->
  concave (fun b => sumn n (fun i => F i b)).
Proof.
  intros H a b t Ht. rewrite <- !sumn_scal, <- sumn_add. apply sumn_le. intros i Hi. now apply H.
Qed.

Lemma concave_add F G : concave F -> concave G -> concave (fun b => F b + G b).
Proof. intros HF HG a b t Ht. specialize (HF a b t Ht). specialize (HG a b t Ht). lra. Qed.

(** A function that lies below a line through each of its points. *)
Lemma tangent_concave (g sl : R -> R) : (forall x y, g y - g x <= sl x * (y - x)) ->
  forall x y t, 0 <= t <= 1 -> t * g x + (1 - t) * g y <= g (t * x + (1 - t) * y).
Proof.
  intros H x y t Ht. set (m := t * x + (1 - t) * y).
  pose proof (H m x) as A. pose proof (H m y) as B.
  assert (A' : t * (g x - g m) <= t * (sl m * (x - m))) by (apply Rmult_le_compat_l; lra).
  assert (B' : (1 - t) * (g y - g m) <= (1 - t) * (sl m * (y - m))) by (apply Rmult_le_compat_l; lra).
  assert (E : t * (sl m * (x - m)) + (1 - t) * (sl m * (y - m)) = 0) by (unfold m; ring).
  lra.
Qed.

(** Being the top of a smooth function minus a multiple of the absolute value. *)
Lemma top_abs (S : R -> R) (g l x : R) : 0 <= l -> derivable_pt_lim S 0 g ->
  (forall t, S t - l * Rabs (x + t) <= S 0 - l * Rabs x) ->
  Rabs g <= l /\ (0 < x -> g = l) /\ (x < 0 -> g = - l).
Proof.
  intros Hl HD HT.
  assert (Up : forall eps, 0 < eps -> exists del, 0 < del /\
             forall t, 0 < t < del -> (g - eps) * t <= S t - S 0 /\ S (- t) - S 0 >= - (g + eps) * t).
  { intros eps He. destruct (HD eps He) as (del & H). exists del. split; [apply cond_pos|]. intros t Ht.
    assert (Q1 : t <> 0) by lra. assert (Q2 : Rabs t < del) by (rewrite Rabs_pos_eq; lra).
    assert (Q3 : - t <> 0) by lra. assert (Q4 : Rabs (- t) < del) by (rewrite Rabs_Ropp, Rabs_pos_eq; lra).
    pose proof (H t Q1 Q2) as A. pose proof (H (- t) Q3 Q4) as B. rewrite !Rplus_0_l in A, B.
    apply Rabs_def2 in A, B.
    assert (EA : S t - S 0 = (S t - S 0) / t * t) by (field; lra).
    assert (EB : S (- t) - S 0 = - ((S (- t) - S 0) / - t * t)) by (field; lra).
    rewrite EA, EB. split; nra. }
  assert (G1 : g <= l).
  { apply Rnot_lt_le. intros N. destruct (Up ((g - l) / 2) ltac:(lra)) as (del & Hd & H).
    destruct (H (del / 2) ltac:(lra)) as (A & _). pose proof (HT (del / 2)) as B.
    assert (C : l * Rabs (x + del / 2) <= l * (Rabs x + del / 2)).
    { apply Rmult_le_compat_l; [assumption|]. pose proof (Rabs_triang x (del / 2)) as T.
      rewrite (Rabs_pos_eq (del / 2)) in T by lra. assumption. }
    nra. }
  assert (G2 : - l <= g).
  { apply Rnot_lt_le. intros N. destruct (Up ((- l - g) / 2) ltac:(lra)) as (del & Hd & H).
    destruct (H (del / 2) ltac:(lra)) as (_ & A). pose proof (HT (- (del / 2))) as B.
    assert (C : l * Rabs (x + - (del / 2)) <= l * (Rabs x + del / 2)).
    { apply Rmult_le_compat_l; [assumption|]. pose proof (Rabs_triang x (- (del / 2))) as T.
      rewrite Rabs_Ropp, (Rabs_pos_eq (del / 2)) in T by lra. assumption. }
    nra. }
  split; [apply Rabs_le; lra|]. split; intros Hx.
  - apply Rle_antisym; [assumption|]. apply Rnot_lt_le. intros N.
    destruct (Up ((l - g) / 2) ltac:(lra)) as (del & Hd & H).
    set (t := Rmin (del / 2) (x / 2)). assert (0 < t) by (apply Rmin_pos; lra).
    assert (t <= del / 2) by apply Rmin_l. assert (t <= x / 2) by apply Rmin_r.
    destruct (H t ltac:(lra)) as (_ & A). pose proof (HT (- t)) as B.
    rewrite (Rabs_pos_eq x), (Rabs_pos_eq (x + - t)) in B by lra. nra.
  - apply Rle_antisym; [|assumption]. apply Rnot_lt_le. intros N.
    destruct (Up ((g + l) / 2) ltac:(lra)) as (del & Hd & H).
    set (t := Rmin (del / 2) (- x / 2)). assert (0 < t) by (apply Rmin_pos; lra).
    assert (t <= del / 2) by apply Rmin_l. assert (t <= - x / 2) by apply Rmin_r.
    destruct (H t ltac:(lra)) as (A & _). pose proof (HT t) as B.
    rewrite (Rabs_left x), (Rabs_left (x + t)) in B by lra. nra.
Qed.
