(** Proofs about the units of the covariates (C71). *)
From Coq Require Import List Bool Arith Lia Reals Lra Psatz.
From Verif Require Import Num Arr Families Data Reg Irls FitM Model RInst Lin SpecGlm FamFacts SpecData DataReal BuildReal
  SpecBuild BuildGen DataProps WeightProps SpecFit FitFacts LoopReal SpecMirror Mirror MirrorData.
From Coq Require Import List.
Import ListNotations.
Local Open Scope R_scope.

Lemma sgn_cases x : x <> 0 -> sgn x = 1 \/ sgn x = -1.
Proof. intros. unfold sgn. destruct (Rlt_dec x 0); [now right|]. destruct (Rlt_dec 0 x); [now left|]. lra. Qed.
Lemma sgn_abs x : sgn x * Rabs x = x.
Proof.
  unfold sgn. destruct (Rlt_dec x 0); [rewrite Rabs_left by assumption; ring|].
  destruct (Rlt_dec 0 x); [rewrite Rabs_right by lra; ring|]. replace x with 0 by lra. rewrite Rabs_R0. ring.
Qed.

Lemma fold_sumn (l : list R) : fold_right Rplus 0 l = sumn (length l) (vg l).
Proof.
  induction l as [|x l IH]; [reflexivity|]. cbn [fold_right length]. rewrite sumn_front, IH. f_equal.
Qed.

Section Units.
  Context {e : MachEps}.

  Section Columns.
    Variables (x : mat R) (a c : list R) (n : nat).
    Hypothesis Hx : mat_shape n (mcols x) x.
    Hypothesis La : length a = mcols x.
    Hypothesis Lc : length c = mcols x.
    Lemma rescale_shape : mat_shape n (mcols x) (rescale a c x).
    Proof.
      destruct Hx as (H1 & H2 & H3). unfold rescale. refine (conj eq_refl (conj _ _)); cbn [mrows].
      - now rewrite map_length.
      - rewrite Forall_forall in *. intros r Hr. apply in_map_iff in Hr as (r0 & <- & Hr0).
        specialize (H3 r0 Hr0). rewrite !map2_length. lia.
    Qed.
    Lemma mg_rescale i j : (i < n)%nat -> (j < mcols x)%nat ->
      mg (rescale a c x) i j = vg a j * mg x i j + vg c j.
    Proof.
      intros Hi Hj. destruct Hx as (H1 & H2 & H3). unfold mg, rescale. cbn [mrows].
      rewrite nth_map_rows by lia. assert (Hl : length (nth i (mrows x) []) = mcols x).
      { rewrite Forall_forall in H3. apply H3, nth_In. lia. }
      rewrite vg_map2 by (rewrite ?map2_length; lia). now rewrite vg_map2 by lia.
    Qed.

    Variables (d : dataset R).
    Hypothesis Hn : nobs d = n.
    Hypothesis Hsum : sumn n (wtv d) <> 0.
    Notation D := (with_x d x).
    Notation D' := (with_x d (rescale a c x)).
    Lemma wmean_rescale j : (j < mcols x)%nat -> wmean D' j = vg a j * wmean D j + vg c j.
    Proof.
      intros Hj. unfold wmean. change (nobs D') with (nobs d). change (nobs D) with (nobs d). rewrite Hn.
      change (wtv D') with (wtv d). change (wtv D) with (wtv d).
      rewrite (sumn_ext n (fun i => wtv d i * xv D' i j) (fun i => vg a j * (wtv d i * xv D i j) + vg c j * wtv d i)).
      - rewrite sumn_add, !sumn_scal. field. assumption.
      - intros i Hi. change (xv D' i j) with (mg (rescale a c x) i j). rewrite mg_rescale by assumption.
        change (xv D i j) with (mg x i j). ring.
    Qed.
    Lemma wvar_rescale j : (j < mcols x)%nat -> wvar D' j = vg a j * vg a j * wvar D j.
    Proof.
      intros Hj. unfold wvar. change (nobs D') with (nobs d). change (nobs D) with (nobs d). rewrite Hn.
      change (wtv D') with (wtv d). change (wtv D) with (wtv d). change (neffv D') with (neffv D).
      rewrite (sumn_ext n (fun i => wtv d i * ((xv D' i j - wmean D' j) * (xv D' i j - wmean D' j)))
        (fun i => vg a j * vg a j * (wtv d i * ((xv D i j - wmean D j) * (xv D i j - wmean D j))))).
      - rewrite sumn_scal. unfold Rdiv. ring.
      - intros i Hi. change (xv D' i j) with (mg (rescale a c x) i j). rewrite mg_rescale by assumption.
        change (xv D i j) with (mg x i j). rewrite wmean_rescale by assumption. ring.
    Qed.
  End Columns.

  (** A covariate that varies has at least two values. *)
  Lemma wvar_two d x j : 0 < wvar (with_x d x) j -> (2 <= nobs d)%nat.
  Proof.
    set (D := with_x d x). intros H. unfold wvar in H. change (nobs D) with (nobs d) in H.
    change (wtv D) with (wtv d) in H. destruct (nobs d) as [|[|m]] eqn:En; [| |lia]; exfalso.
    - cbn [sumn] in H. unfold Rdiv in H. rewrite !Rmult_0_l in H. lra.
    - assert (M : wtv d 0 * ((xv D 0 j - wmean D j) * (xv D 0 j - wmean D j)) = 0).
      { destruct (Req_dec (wtv d 0) 0) as [Z|Z]; [rewrite Z; ring|].
        replace (xv D 0 j - wmean D j) with 0; [ring|].
        unfold wmean. change (nobs D) with (nobs d). rewrite En. cbn [sumn]. change (wtv D) with (wtv d). field. lra. }
      cbn [sumn] in H. rewrite M in H. unfold Rdiv in H. rewrite Rplus_0_l, !Rmult_0_l in H. lra.
  Qed.

  (** The two standardized datasets agree up to signs. *)
  Definition usign (ic : bool) (a : list R) (k : nat) : R :=
    if ic then match k with O => 1 | S j => sgn (vg a j) end else sgn (vg a k).
  Definition ufac (ic : bool) (a : list R) (k : nat) : R :=
    if ic then match k with O => 1 | S j => vg a j end else vg a k.
  Definition ushift (ic : bool) (c : list R) (k : nat) : R :=
    if ic then match k with O => 0 | S j => vg c j end else 0.

    Lemma usign_fac ic a k : usign ic a k = sgn (ufac ic a k).
    Proof.
      unfold usign, ufac. destruct ic; [destruct k|]; try reflexivity. unfold sgn.
      destruct (Rlt_dec 1 0); [lra|]. destruct (Rlt_dec 0 1); [reflexivity|lra].
    Qed.

  Section Built.
    Variables (x : mat R) (a c : list R) (ic : bool) (d d' : dataset R) (y : list R) (off w fr : option (list R)).
    Let d0 := raw y x off w fr false.
    Let d1 := raw y (rescale a c x) off w fr false.
    Hypothesis W0 : wf d0.
    Hypothesis B : built d0 true ic d.
    Hypothesis B' : built d1 true ic d'.
    Hypothesis Hr : rescalable d x a c.
    Hypothesis Hsum : (2 <= nobs d)%nat -> sumn (nobs d) (wtv d) <> 0.

    Let Hnd : nobs d = nobs d0.
    Proof. unfold nobs. now rewrite (bu_y _ _ _ _ B). Qed.
    Let La : length a = mcols x.
    Proof. apply Hr. Qed.
    Let Lc : length c = mcols x.
    Proof. apply Hr. Qed.
    Let Hx : mat_shape (nobs d) (mcols x) x.
    Proof. rewrite Hnd. exact (wf_x _ W0). Qed.
    Let Ew : wtv d = wtv d0.
    Proof. unfold wtv, frv, vwv. now rewrite (bu_w _ _ _ _ B), (bu_f _ _ _ _ B). Qed.
    Let Ed : with_x d x = d0.
    Proof. unfold with_x, d0, raw. rewrite (bu_y _ _ _ _ B), (bu_off _ _ _ _ B), (bu_w _ _ _ _ B), (bu_f _ _ _ _ B). reflexivity. Qed.
    Let Ed' : with_x d (rescale a c x) = d1.
    Proof. unfold with_x, d1, raw. rewrite (bu_y _ _ _ _ B), (bu_off _ _ _ _ B), (bu_w _ _ _ _ B), (bu_f _ _ _ _ B). reflexivity. Qed.

    Let Ei : d_intercept d = ic.
    Proof. apply (bu_int _ _ _ _ B). Qed.
    Let Ei' : d_intercept d' = ic.
    Proof. apply (bu_int _ _ _ _ B'). Qed.
    Let N1 : nobs d' = nobs d.
    Proof. unfold nobs. now rewrite (bu_y _ _ _ _ B'), (bu_y _ _ _ _ B). Qed.
    Let N2 j : (j < mcols x)%nat -> (2 <= nobs d)%nat.
    Proof. intros Hj. apply (wvar_two d x j). now apply (proj2 (proj2 Hr)). Qed.

    Lemma units_sc1 j : (j < mcols x)%nat ->
      scv d' (if ic then S j else j) = Rabs (vg a j) * scv d (if ic then S j else j).
    Proof.
      intros Hj. pose proof (N2 j Hj) as H2. destruct (proj2 (proj2 Hr) j Hj) as (Ha & Hc & Hv).
      rewrite (bu_sc _ _ _ _ B'), (bu_sc _ _ _ _ B) by (auto; exact Hj).
      change (nobs d1) with (nobs d0). rewrite <- Hnd.
      replace (nobs d <=? 1) with false by (symmetry; apply Nat.leb_gt; lia).
      rewrite <- Ed, <- Ed'. rewrite (wvar_rescale x a c (nobs d)) by auto.
      assert (Ha2 : 0 < vg a j * vg a j) by now apply sq_pos.
      destruct (Rlt_dec 0 (wvar (with_x d x) j)) as [_|Z]; [|contradiction].
      destruct (Rlt_dec 0 (vg a j * vg a j * wvar (with_x d x) j)) as [_|Z].
      2:{ elim Z. now apply Rmult_lt_0_compat. }
      rewrite sqrt_mult by lra. f_equal. apply sqrt_Rsqr_abs.
    Qed.
    Lemma units_sh1 j : (j < mcols x)%nat ->
      shv d' (if ic then S j else j) = vg a j * shv d (if ic then S j else j) + vg c j.
    Proof.
      intros Hj. pose proof (N2 j Hj) as H2. destruct (proj2 (proj2 Hr) j Hj) as (Ha & Hc & Hv).
      rewrite (bu_sh _ _ _ _ B'), (bu_sh _ _ _ _ B) by (auto; exact Hj).
      destruct ic; [|rewrite Hc by assumption; ring].
      change (nobs d1) with (nobs d0). rewrite <- Hnd.
      replace (nobs d =? 0) with false by (symmetry; apply Nat.eqb_neq; lia).
      rewrite <- Ed, <- Ed'. apply (wmean_rescale x a c (nobs d)); auto.
    Qed.
    Let Hnp : npar d = if ic then S (mcols x) else mcols x.
    Proof. exact (bu_npar _ _ _ _ B). Qed.

    Lemma units_sc k : (k < npar d)%nat -> scv d' k = Rabs (ufac ic a k) * scv d k.
    Proof.
      intros Hk. rewrite Hnp in Hk. unfold ufac. pose proof units_sc1 as K. destruct ic.
      - destruct k as [|j]; [rewrite !scv_0 by assumption; rewrite Rabs_R1; ring|]. apply K. lia.
      - now apply K.
    Qed.
    Lemma units_sh k : (k < npar d)%nat -> shv d' k = ufac ic a k * shv d k + ushift ic c k.
    Proof.
      intros Hk. rewrite Hnp in Hk. unfold ufac, ushift. pose proof units_sh1 as K. destruct ic.
      - destruct k as [|j]; [rewrite !shv_0; ring|]. apply K. lia.
      - rewrite !shv_noint by assumption. ring.
    Qed.
    Lemma ufac_nz k : (k < npar d)%nat -> ufac ic a k <> 0.
    Proof.
      intros Hk. rewrite Hnp in Hk. unfold ufac. destruct ic; [destruct k as [|j]; [lra|]|]; apply (proj2 (proj2 Hr)); lia.
    Qed.
    Lemma units_x i k : (i < nobs d)%nat -> (k < npar d)%nat ->
      xv d' i k = usign ic a k * xv d i k.
    Proof.
      intros Hi Hk. pose proof (units_sc k Hk) as Sc. pose proof (units_sh k Hk) as Sh.
      pose proof (scv_pos d k (bu_wf _ _ _ _ B) Hk) as P. pose proof (ufac_nz k Hk) as A.
      pose proof (Rabs_pos_lt _ A) as A'. rewrite usign_fac.
      assert (K : forall j, (j < mcols x)%nat -> k = (if ic then S j else j) -> ufac ic a k = vg a j ->
                  (ic = true -> ushift ic c k = vg c j) -> xv d' i k = sgn (ufac ic a k) * xv d i k).
      { intros j Hj Ek Ea Es. destruct (proj2 (proj2 Hr) j Hj) as (_ & Hc & _).
        assert (X' : xv d' i k = (vg a j * mg x i j + vg c j - shv d' k) / scv d' k).
        { rewrite Ek. rewrite (bu_x _ _ _ _ B') by (try exact Hj; change (nobs d1) with (nobs d0); lia).
          change (xv d1 i j) with (mg (rescale a c x) i j). now rewrite (mg_rescale x a c (nobs d)). }
        assert (X : xv d i k = (mg x i j - shv d k) / scv d k).
        { rewrite Ek. rewrite (bu_x _ _ _ _ B) by (try exact Hj; lia). reflexivity. }
        rewrite X', X, Sc, Sh.
        assert (Q : vg c j = ushift ic c k).
        { destruct ic; [now rewrite Es|]. rewrite Hc by assumption. reflexivity. }
        rewrite Q, <- Ea. rewrite <- (sgn_abs (ufac ic a k)) at 1 2. field. split; lra. }
      rewrite Hnp in Hk. clear Sc Sh. unfold ufac, ushift in *. destruct ic.
      - destruct k as [|j].
        + rewrite (proj2 (wf_int _ (bu_wf _ _ _ _ B') Ei')) by lia.
          rewrite (proj2 (wf_int _ (bu_wf _ _ _ _ B) Ei)) by lia.
          unfold sgn. destruct (Rlt_dec 1 0); [lra|]. destruct (Rlt_dec 0 1); lra.
        + apply (K j); auto; lia.
      - apply (K k); auto; discriminate.
    Qed.

    Lemma units_coefs b : length b = npar d ->
      inverse_transform_beta d' (flip (unit_signs ic a) b) = in_units ic a c (inverse_transform_beta d b).
    Proof.
      intros Lb. pose proof (bu_wf _ _ _ _ B) as W. pose proof (bu_wf _ _ _ _ B') as W'.
      assert (Np' : npar d' = npar d) by (rewrite (bu_npar _ _ _ _ B'), Hnp; reflexivity).
      assert (Lu : length (unit_signs ic a) = npar d).
      { rewrite Hnp. unfold unit_signs. destruct ic; cbn [length]; rewrite map_length; congruence. }
      assert (Vu : forall k, (k < npar d)%nat -> vg (unit_signs ic a) k = sgn (ufac ic a k)).
      { intros k Hk. rewrite <- usign_fac. rewrite Hnp in Hk. unfold unit_signs, usign. destruct ic.
        - destruct k as [|j]; [reflexivity|]. rewrite vg_S. apply vg_map. lia.
        - apply vg_map. lia. }
      assert (Lf : length (flip (unit_signs ic a) b) = npar d') by (rewrite Np'; now apply flip_len).
      pose proof (inverse_transform_beta_length d b W Lb) as Li.
      pose proof (inverse_transform_beta_length d' _ W' Lf) as Li'.
      set (r := inverse_transform_beta d b) in *.
      assert (Lr : length (in_units ic a c r) = npar d).
      { rewrite Hnp in *. unfold in_units. destruct ic.
        - destruct r as [|r0 rs]; [discriminate|]. injection Li as Li. cbn [length]. rewrite map2_length. lia.
        - rewrite map2_length. lia. }
      assert (Vr : forall k, (k < npar d)%nat -> vg (in_units ic a c r) k =
        vg r k / ufac ic a k - (if k =? 0 then sumn (npar d) (fun k => ushift ic c k * (vg r k / ufac ic a k)) else 0)).
      { intros k Hk. rewrite Hnp in *. unfold in_units, ufac, ushift. destruct ic.
        - destruct r as [|r0 rs]; [discriminate|]. injection Li as Li. destruct k as [|j].
          + cbn [Nat.eqb]. change (vg (?u :: _) 0) with u. rewrite sumn_front.
            replace (fold_right Rplus 0 (map2 Rmult c (map2 Rdiv rs a)))
              with (sumn (mcols x) (fun i => vg c i * (vg (r0 :: rs) (S i) / vg a i))); [field|].
            rewrite fold_sumn, !map2_length, La, Lc, Li, !Nat.min_id. apply sumn_ext. intros i Hi.
            rewrite vg_map2 by (rewrite ?map2_length; lia). rewrite vg_map2 by lia. now rewrite vg_S.
          + cbn [Nat.eqb]. rewrite !vg_S, vg_map2 by lia. ring.
        - rewrite vg_map2 by lia. rewrite sumn_zero' by (intros; ring). destruct (k =? 0); ring. }
      apply vec_ext; [congruence|]. rewrite Li', Np'. intros k Hk.
      rewrite inverse_transform_beta_spec by (auto; lia). rewrite Vr by assumption.
      assert (Q : forall k, (k < npar d)%nat -> vg (flip (unit_signs ic a) b) k / scv d' k = vg b k / scv d k / ufac ic a k).
      { intros j Hj. rewrite vg_flip, Vu, units_sc by (auto; lia). pose proof (scv_pos d j W Hj) as P.
        pose proof (ufac_nz j Hj) as A. pose proof (Rabs_pos_lt _ A) as A'.
        assert (S2 : sgn (ufac ic a j) * sgn (ufac ic a j) = 1) by (destruct (sgn_cases _ A) as [-> | ->]; lra).
        pose proof (sgn_abs (ufac ic a j)) as SA. 
        assert (E1 : / Rabs (ufac ic a j) * sgn (ufac ic a j) = / ufac ic a j).
        { rewrite <- SA at 3. rewrite Rinv_mult.
          replace (/ sgn (ufac ic a j)) with (sgn (ufac ic a j)); [ring|].
          destruct (sgn_cases _ A) as [-> | ->]; field. }
        unfold Rdiv. rewrite Rinv_mult.
        transitivity (/ Rabs (ufac ic a j) * sgn (ufac ic a j) * vg b j * / scv d j); [ring|]. rewrite E1. ring. }
      assert (R0 : forall k, (k < npar d)%nat -> vg r k = vg b k / scv d k -
         (if k =? 0 then sumn (npar d) (fun k => shv d k * (vg b k / scv d k)) else 0)).
      { intros j Hj. unfold r. now apply inverse_transform_beta_spec. }
      rewrite Q by assumption. rewrite (R0 k) by assumption. destruct (k =? 0) eqn:Ek; [|unfold Rdiv; ring].
      apply Nat.eqb_eq in Ek. subst k. rewrite Np'.
      rewrite (sumn_ext (npar d) (fun k => shv d' k * _) (fun k => shv d k * (vg b k / scv d k) + ushift ic c k * (vg r k / ufac ic a k))).
      2:{ intros k Hk'. rewrite Q, units_sh, R0 by assumption. pose proof (ufac_nz k Hk') as A.
          pose proof (scv_pos d k W Hk'). destruct (k =? 0) eqn:Ek.
          - apply Nat.eqb_eq in Ek. subst k. rewrite shv_0. replace (ushift ic c 0) with 0 by (unfold ushift; now destruct ic). field. split; lra.
          - field. split; lra. }
      rewrite sumn_add. pose proof (ufac_nz 0 Hk) as A. unfold ufac at 1 3. unfold ufac in A. destruct ic; [field; pose proof (scv_pos d 0 W Hk); lra|].
      assert (Z : sumn (npar d) (fun k => shv d k * (vg b k / scv d k)) = 0).
      { apply sumn_zero'. intros i Hi. rewrite shv_noint by assumption. ring. }
      rewrite Z. pose proof (scv_pos d 0 W Hk). field. split; lra.
    Qed.
  End Built.

  Lemma flip_ones s b : (forall k, (k < length s)%nat -> vg s k = 1) -> (length b <= length s)%nat -> flip s b = b.
  Proof.
    intros H L. apply vec_ext; [rewrite flip_length; lia|]. rewrite flip_length. intros k Hk.
    rewrite vg_flip, H by lia. ring.
  Qed.
  Lemma flip_mat_ones s m : (forall k, (k < length s)%nat -> vg s k = 1) -> mat_shape (length s) (length s) m -> flip_mat s m = m.
  Proof.
    intros H Hm. apply (mat_ext (length s) (length s)); [now apply flip_mat_shape|assumption|].
    intros i j Hi Hj. rewrite (mg_flip_mat s m (length s)), !H by auto. ring.
  Qed.
  Lemma blind_ones s solveh : solver_len solveh -> (forall k, (k < length s)%nat -> vg s k = 1) -> blind_to s solveh.
  Proof.
    intros HL H m v Hm Lv. rewrite flip_mat_ones, flip_ones by (auto; lia).
    destruct (solveh m v) as [b|] eqn:E; [|reflexivity]. cbn. f_equal. symmetry. apply flip_ones; [assumption|].
    rewrite (HL _ _ _ E). unfold nrows. rewrite (proj1 (proj2 Hm)). lia.
  Qed.
End Units.

(** Two datasets that differ in the units of the covariates. *)
Record data_units {e : MachEps} (ic : bool) (a c : list R) (d d' : dataset R) : Prop := {
  du_wf : wf d;
  du_wf' : wf d';
  du_y : d_y d' = d_y d;
  du_off : d_offset d' = d_offset d;
  du_w : d_weights d' = d_weights d;
  du_f : d_freqs d' = d_freqs d;
  du_ic : d_intercept d = ic;
  du_ic' : d_intercept d' = ic;
  du_np : npar d' = npar d;
  du_len : npar d = if ic then S (length a) else length a;
  du_lc : length c = length a;
  du_a : forall k, (k < npar d)%nat -> ufac ic a k <> 0;
  du_x : forall i k, (i < nobs d)%nat -> (k < npar d)%nat -> xv d' i k = usign ic a k * xv d i k;
  du_sc : forall k, (k < npar d)%nat -> scv d' k = Rabs (ufac ic a k) * scv d k;
  du_sh : forall k, (k < npar d)%nat -> shv d' k = ufac ic a k * shv d k + ushift ic c k;
  du_co : forall b, length b = npar d ->
    inverse_transform_beta d' (flip (unit_signs ic a) b) = in_units ic a c (inverse_transform_beta d b);
  du_c : ic = false -> forall j, (j < length a)%nat -> vg c j = 0;
  du_std : d_std d <> None;
  du_std' : d_std d' <> None;
  du_xo : x_orig d' = rescale a c (x_orig d);
  du_two : (0 < length a)%nat -> (2 <= nobs d)%nat;
  du_sum : (2 <= nobs d)%nat -> sumn (nobs d) (wtv d) <> 0
}.

Lemma units_built {e : MachEps} x a c ic d d' y off w fr :
  wf (raw y x off w fr false) -> wf (raw y (rescale a c x) off w fr false) ->
  built (raw y x off w fr false) true ic d -> built (raw y (rescale a c x) off w fr false) true ic d' ->
  rescalable d x a c -> ((2 <= nobs d)%nat -> sumn (nobs d) (wtv d) <> 0) -> data_units ic a c d d'.
Proof.
  intros W W1 B B' Hr Hsum.
  assert (La : length a = mcols x) by apply Hr. assert (Lc : length c = mcols x) by apply Hr.
  assert (Np : npar d = if ic then Datatypes.S (mcols x) else mcols x) by exact (bu_npar _ _ _ _ B).
  pose proof (bu_wf _ _ _ _ B) as Wd. pose proof (bu_wf _ _ _ _ B') as Wd'.
  assert (Np' : npar d' = npar d) by (rewrite Np; exact (bu_npar _ _ _ _ B')).
  split; auto.
  - now rewrite (bu_y _ _ _ _ B'), (bu_y _ _ _ _ B).
  - now rewrite (bu_off _ _ _ _ B'), (bu_off _ _ _ _ B).
  - now rewrite (bu_w _ _ _ _ B'), (bu_w _ _ _ _ B).
  - now rewrite (bu_f _ _ _ _ B'), (bu_f _ _ _ _ B).
  - apply (bu_int _ _ _ _ B).
  - apply (bu_int _ _ _ _ B').
  - now rewrite La.
  - congruence.
  - intros k Hk. eapply ufac_nz; [exact B|exact B'|exact Hr|exact Hsum|exact Hk].
  - intros i k Hi Hk. apply (units_x x a c ic d d' y off w fr); auto.
  - intros k Hk. apply (units_sc x a c ic d d' y off w fr); auto.
  - intros k Hk. apply (units_sh x a c ic d d' y off w fr); auto.
  - intros v Lv. apply (units_coefs x a c ic d d' y off w fr); auto.
  - intros Z j Hj. destruct Hr as (_ & _ & Hr). apply Hr; [congruence|]. now rewrite (bu_int _ _ _ _ B).
  - now apply (bu_some _ _ _ _ B).
  - now apply (bu_some _ _ _ _ B').
  - pose proof (built_x_orig (raw y x off w fr false) true ic d eq_refl W B) as ->.
    pose proof (built_x_orig (raw y (rescale a c x) off w fr false) true ic d' eq_refl W1 B') as ->. reflexivity.
  - intros H0. apply (wvar_two d x 0). apply (proj2 (proj2 Hr)). lia.
Qed.

Lemma usign_cases ic a k : ufac ic a k <> 0 -> usign ic a k = 1 \/ usign ic a k = -1.
Proof. intros H. rewrite usign_fac. now apply sgn_cases. Qed.
Lemma vg_unit_signs (ic : bool) a k : (k < if ic then S (length a) else length a)%nat -> vg (unit_signs ic a) k = usign ic a k.
Proof.
  intros Hk. unfold unit_signs, usign. destruct ic.
  - destruct k as [|j]; [reflexivity|]. rewrite vg_S. apply vg_map. lia.
  - now apply vg_map.
Qed.
Lemma unit_signs_len (ic : bool) a : length (unit_signs ic a) = if ic then S (length a) else length a.
Proof. unfold unit_signs. destruct ic; cbn [length]; now rewrite map_length. Qed.

Lemma units_blind (ic : bool) (a : list R) solveh (n : nat) : solver_len solveh -> n = length a -> (forall k, (k < if ic then S n else n)%nat -> ufac ic a k <> 0) ->
  ((forall j, (j < n)%nat -> 0 < vg a j) \/ sign_blind solveh) -> blind_to (unit_signs ic a) solveh.
Proof.
  intros HL -> Hc [Hp|HS].
  - apply blind_ones; [assumption|rewrite unit_signs_len; intros k Hk; rewrite vg_unit_signs by assumption].
    assert (K : forall j, (j < length a)%nat -> sgn (vg a j) = 1).
    { intros j Hj. specialize (Hp j Hj). unfold sgn. destruct (Rlt_dec (vg a j) 0); [lra|].
      destruct (Rlt_dec 0 (vg a j)); lra. }
    unfold usign. destruct ic; [destruct k as [|j]; [ring|apply K; lia]|now apply K].
  - apply HS. unfold signs. rewrite Forall_forall. intros z Hz. destruct (In_nth _ _ 0 Hz) as (k & Hk & <-).
    rewrite unit_signs_len in Hk. change (nth k (unit_signs ic a) 0) with (vg (unit_signs ic a) k).
    rewrite vg_unit_signs by assumption. now apply usign_cases, Hc.
Qed.

Lemma units_regression {e : MachEps} fam ic a c d d' : data_units ic a c d d' ->
  forall solveh sfuel o, solver_len solveh ->
    (forall b, o_init o = Some b -> length b = npar d) ->
    ((forall j, (j < length a)%nat -> 0 < vg a j) \/ sign_blind solveh) ->
    corresponds (in_units ic a c) (flip (unit_signs ic a)) (fun w => w) (fun m => m)
      (regression (glm_of fam) solveh sfuel d o)
      (regression (glm_of fam) solveh sfuel d' (with_init (in_units ic a c) o)) /\
    same_rho (regression (glm_of fam) solveh sfuel d o)
      (regression (glm_of fam) solveh sfuel d' (with_init (in_units ic a c) o)).
Proof.
  intros H solveh sfuel o HL HI HS.
  pose proof (du_wf _ _ _ _ _ H) as Wd. pose proof (du_wf' _ _ _ _ _ H) as Wd'.
  pose proof (du_np _ _ _ _ _ H) as Np'. pose proof (du_len _ _ _ _ _ H) as Np.
  assert (Es : sg d 1 (usign ic a) = unit_signs ic a).
  { apply vec_ext.
    - now rewrite sg_len, Np, unit_signs_len.
    - rewrite sg_len. intros k Hk. rewrite sg_vg by assumption. rewrite Np in Hk. rewrite vg_unit_signs by assumption. ring. }
  assert (Hc : forall k, (k < npar d)%nat -> usign ic a k = 1 \/ usign ic a k = -1).
  { intros k Hk. now apply usign_cases, (du_a _ _ _ _ _ H). }
  assert (Bl : blind_to (sg d 1 (usign ic a)) solveh).
  { rewrite Es. apply (units_blind ic a solveh (length a)); auto. intros k Hk. apply (du_a _ _ _ _ _ H). now rewrite Np. }
  apply (pair_regression_full fam d d' 1 (usign ic a)); auto.
  - unfold nobs. now rewrite (du_y _ _ _ _ _ H).
  - now rewrite (du_ic _ _ _ _ _ H), (du_ic' _ _ _ _ _ H).
  - intros i Hi. unfold wtv, frv, vwv. now rewrite (du_w _ _ _ _ _ H), (du_f _ _ _ _ _ H).
  - apply (du_x _ _ _ _ _ H).
  - intros i Hi. unfold offv. rewrite (du_off _ _ _ _ _ H). ring.
  - intros i w Hi. unfold yv. rewrite (du_y _ _ _ _ _ H). now rewrite !Rmult_1_l.
  - intros w. now rewrite Rmult_1_l.
  - intros i w Hi. unfold yv. rewrite (du_y _ _ _ _ _ H). now rewrite Rmult_1_l.
  - intros v Lv. now rewrite Es.
  - intros w. ring.
  - cbn [with_init o_init]. destruct (o_init o) as [i0|]; cbn [option_map].
    + specialize (HI i0 eq_refl). pose proof (transform_beta_length d i0 Wd HI) as Lt.
      pose proof (du_co _ _ _ _ _ H _ Lt) as K.
      rewrite inverse_transform in K by assumption. rewrite <- K, Es.
      assert (Lf : length (flip (unit_signs ic a) (transform_beta d i0)) = npar d').
      { rewrite Np', <- Es. apply flip_len; [apply sg_len|assumption]. }
      split; [rewrite inverse_transform_beta_length by auto; congruence|]. intros _. now apply transform_inverse.
    + unfold init_link_y, y_mean. rewrite (du_y _ _ _ _ _ H), (du_off _ _ _ _ _ H).
      rewrite (map_ext (Rmult 1) (fun z => z)) by (intros; ring). symmetry. apply map_id.
  - intros v Lv. rewrite Es. now apply (du_co _ _ _ _ _ H).
  - intros w. now rewrite Rmult_1_l.
Qed.

Lemma units_core : forall (e : MachEps) (S : Type) (SOps : FloatOps S) (cast : S -> R) fam ys x ss d a c,
  build_with cast fam ys x ss = Ok d -> mat_shape (length ys) (mcols x) x -> weights_fit ys ss ->
  ~ In NoStandardize ss -> rescalable d x a c ->
  exists d', build_with cast fam ys (rescale a c x) ss = Ok d' /\ data_units (d_intercept d) a c d d'.
Proof.
  intros e S SOps cast fam ys x ss d a c HB Hx Hwf Hns Hr.
  destruct (build_full cast _ _ _ _ _ HB Hx Hwf) as (y & Hy & He & W & B & Hne & Hst & Hfr & _).
  set (b := fold_left apply_setter ss builder_new) in *.
  pose proof (Forall2_len _ _ _ Hy) as Ly.
  assert (Hs : b_standardize b = true) by (destruct (b_standardize b); [reflexivity|]; elim Hns; now apply Hst).
  rewrite Hs in *. set (d0 := raw y x (b_offset b) (b_weights b) (b_freqs b) false) in *.
  set (d1 := raw y (rescale a c x) (b_offset b) (b_weights b) (b_freqs b) false).
  assert (La : length a = mcols x) by apply Hr. assert (Lc : length c = mcols x) by apply Hr.
  assert (N0 : nobs d0 = length ys) by (unfold nobs; cbn; lia).
  assert (Nd : nobs d = length ys) by (unfold nobs; rewrite (bu_y _ _ _ _ B); cbn; lia).
  assert (W1 : wf d1).
  { destruct W. split; unfold nobs, npar in *; cbn in *; auto; try discriminate.
    rewrite <- Ly. now apply rescale_shape. }
  assert (Ew : wtv d = wtv d0) by (unfold wtv, frv, vwv; now rewrite (bu_w _ _ _ _ B), (bu_f _ _ _ _ B)).
  assert (Hsum : (2 <= nobs d)%nat -> sumn (nobs d) (wtv d) <> 0).
  { intros H2. rewrite Nd in H2. specialize (Hne eq_refl H2). unfold neffv in Hne. rewrite Ew, Nd, <- N0.
    unfold d0 in Hne at 1. cbn [raw d_weights] in Hne. destruct (b_weights b) eqn:Eb.
    - intros Z. rewrite Z in Hne. unfold Rdiv in Hne. rewrite !Rmult_0_l in Hne. lra.
    - intros Z. rewrite (sumn_ext _ _ (frv d0)) in Z; [lra|]. intros i Hi. unfold wtv, vwv. replace (d_weights d0) with (@None (list R)) by (first [reflexivity|symmetry; exact Eb]). ring. }
  pose proof (finalize_spec y (rescale a c x) (b_offset b) (b_weights b) (b_freqs b) true (b_intercept b) W1) as Hf.
  cbv zeta in Hf. fold d1 in Hf.
  assert (Hcond : true && (1 <? nobs d1) && negb (Rltb 1 (n_eff d1)) = false).
  { change (nobs d1) with (nobs d0). rewrite N0. cbn [andb]. destruct (1 <? length ys) eqn:E1; [|reflexivity].
    cbn [andb]. apply Nat.ltb_lt in E1. specialize (Hne eq_refl E1). rewrite neffv_spec by assumption.
    apply negb_false_iff, Rltb_true. exact Hne. }
  rewrite Hcond in Hf. destruct Hf as (d' & Fd & B').
  exists d'. split.
  { apply (build_make cast fam ys (rescale a c x) ss y); fold b; auto. rewrite Hs. exact Fd. }
  rewrite (bu_int _ _ _ _ B). now apply (units_built x a c _ d d' y (b_offset b) (b_weights b) (b_freqs b)).
Qed.

Lemma C71_units_lemma : forall (e : MachEps) (S : Type) (SOps : FloatOps S) (cast : S -> R) fam ys x ss d a c,
  build_with cast fam ys x ss = Ok d -> mat_shape (length ys) (mcols x) x -> weights_fit ys ss ->
  ~ In NoStandardize ss -> rescalable d x a c ->
  let ic := d_intercept d in
  exists d', build_with cast fam ys (rescale a c x) ss = Ok d' /\
    forall solveh sfuel o, solver_len solveh ->
      (forall b, o_init o = Some b -> length b = npar d) ->
      ((forall j, (j < mcols x)%nat -> 0 < vg a j) \/ sign_blind solveh) ->
      corresponds (in_units ic a c) (flip (unit_signs ic a)) (fun w => w) (fun m => m)
        (regression (glm_of fam) solveh sfuel d o)
        (regression (glm_of fam) solveh sfuel d' (with_init (in_units ic a c) o)).
Proof.
  intros e S SOps cast fam ys x ss d a c HB Hx Hwf Hns Hr.
  destruct (units_core e S SOps cast fam ys x ss d a c HB Hx Hwf Hns Hr) as (d' & B' & K).
  exists d'. split; [assumption|]. intros solveh sfuel o HL HI HS. apply (units_regression fam _ a c d d' K); auto.
  destruct HS as [HS|HS]; [left|now right]. destruct Hr as (-> & _). exact HS.
Qed.

(** ** Predictions *)
Section Predict.
  Context {e : MachEps}.
  Lemma dot_units : forall a c r b : list R, length c = length a -> length r = length a -> length b = length a ->
    (forall j, (j < length a)%nat -> vg a j <> 0) ->
    dot (map2 Rplus (map2 Rmult a r) c) (map2 Rdiv b a) = dot r b + fold_right Rplus 0 (map2 Rmult c (map2 Rdiv b a)).
  Proof.
    induction a as [|a0 a IH]; intros [|c0 c] [|r0 r] [|b0 b]; cbn [length]; intros Lc Lr Lb Ha; try discriminate.
    - cbn. ring.
    - injection Lc as Lc. injection Lr as Lr. injection Lb as Lb.
      change ((a0 * r0 + c0) * (b0 / a0) + dot (map2 Rplus (map2 Rmult a r) c) (map2 Rdiv b a) =
              (r0 * b0 + dot r b) + (c0 * (b0 / a0) + fold_right Rplus 0 (map2 Rmult c (map2 Rdiv b a)))).
      rewrite IH; auto.
      + pose proof (Ha 0%nat ltac:(lia)) as A. change (vg (a0 :: a) 0) with a0 in A. field. assumption.
      + intros j Hj. apply (Ha (S j)). lia.
  Qed.
  Lemma fold_zero : forall c b : list R, (forall j, (j < length c)%nat -> vg c j = 0) ->
    fold_right Rplus 0 (map2 Rmult c b) = 0.
  Proof.
    induction c as [|c0 c IH]; intros [|b0 b] H; cbn; try reflexivity.
    rewrite IH by (intros j Hj; apply (H (S j)); cbn; lia).
    pose proof (H 0%nat ltac:(cbn; lia)) as A. change (vg (c0 :: c) 0) with c0 in A. rewrite A. ring.
  Qed.

  Lemma C71_predict_lemma fam ft ft' a c n x off :
    let ic := d_intercept (f_data ft) in
    d_intercept (f_data ft') = ic -> f_result ft' = in_units ic a c (f_result ft) ->
    length (f_result ft) = (if ic then S (mcols x) else mcols x) ->
    length a = mcols x -> length c = mcols x ->
    (forall j, (j < mcols x)%nat -> vg a j <> 0 /\ (ic = false -> vg c j = 0)) ->
    mat_shape n (mcols x) x ->
    predict (glm_of fam) ft' (rescale a c x) off = predict (glm_of fam) ft x off.
  Proof.
    intros ic Ei Er Lb La Lc H Hx. unfold predict. rewrite Ei, Er. fold ic.
    set (b := f_result ft) in *. clearbody b.
    assert (L : length (in_units ic a c b) = length b).
    { rewrite Lb. unfold in_units. destruct ic.
      - destruct b as [|b0 b]; [discriminate|]. cbn in Lb |- *. rewrite map2_length. lia.
      - rewrite map2_length. lia. }
    rewrite L.
    assert (Em : mcols (if ic then one_pad (rescale a c x) else rescale a c x) = mcols (if ic then one_pad x else x)).
    { destruct ic; reflexivity. }
    rewrite Em.
    assert (Ev : mat_vec (if ic then one_pad (rescale a c x) else rescale a c x) (in_units ic a c b) =
                 mat_vec (if ic then one_pad x else x) b).
    { destruct Hx as (_ & _ & Hr). rewrite Forall_forall in Hr. unfold mat_vec, in_units, one_pad, rescale.
      assert (Ha : forall j, (j < length a)%nat -> vg a j <> 0) by (intros j Hj; apply H; lia).
      destruct ic; cbn [mrows].
      - destruct b as [|b0 b]; [discriminate|]. injection Lb as Lb. rewrite !map_map. apply map_ext_in. intros r Hin.
        specialize (Hr r Hin).
        match goal with |- dot (?o :: ?p) (?u :: ?v) = _ => change (dot (o :: p) (u :: v)) with (o * u + dot p v) end.
        rewrite dot_units by (auto; lia).
        match goal with |- _ = dot (?o :: ?p) (?u :: ?v) => change (dot (o :: p) (u :: v)) with (o * u + dot p v) end.
        rops. ring.
      - rewrite map_map. apply map_ext_in. intros r Hin. specialize (Hr r Hin). rewrite dot_units by (auto; lia).
        rewrite fold_zero; [ring|]. intros j Hj. apply H; [lia|reflexivity]. }
    rewrite Ev. reflexivity.
  Qed.
End Predict.
