(** Weights of one in exact arithmetic and in IEEE arithmetic, and while building (C94). *)
From Coq Require Import List Bool Arith Lia ZArith Reals Lra.
From Coq Require Import Floats.SpecFloat.
From Flocq Require Import Core.Core IEEE754.BinarySingleNaN.
From Verif Require Import Num Arr Families Data Model Reg Irls FitM Cache SpecCache RInst Lin SpecGlm SpecData SpecUnit UnitFit F64 F64Bin.
From Coq Require Import List.
Import ListNotations.

(** ** The shape checks *)
Section Chk.
  Context {F : Type} {Ops : FloatOps F}.
  Hypothesis M1l : forall x : F, fmul fone x = x.
  Hypothesis M1r : forall x : F, fmul x fone = x.
  Lemma bc2_eq {A B C} (f : A -> B -> C) a b : length a = length b -> bc2 f a b = Some (map2 f a b).
  Proof. intros H. unfold bc2. rewrite H, Nat.eqb_refl. reflexivity. Qed.
  Lemma map2_len {A B C} (f : A -> B -> C) : forall a b, length a = length b -> length (map2 f a b) = length b.
  Proof. induction a as [|x a IH]; intros [|y b] H; try discriminate; [reflexivity|]. cbn in *. now rewrite IH by lia. Qed.
  Lemma afw_chk (d : dataset F) v : sized d -> length v = length (d_y d) -> apply_freq_weights_chk d v = Some (apply_freq_weights d v).
  Proof.
    intros (_ & _ & H) L. unfold apply_freq_weights_chk, apply_freq_weights. destruct (d_freqs d) as [f|]; [|reflexivity].
    specialize (H f eq_refl). apply bc2_eq. congruence.
  Qed.
  Lemma atw_chk (d : dataset F) v : sized d -> length v = length (d_y d) -> apply_total_weights_chk d v = Some (apply_total_weights d v).
  Proof.
    intros S L. unfold apply_total_weights_chk, apply_total_weights, apply_var_weights_chk, apply_var_weights. pose proof (proj1 (proj2 S)) as H.
    destruct (d_weights d) as [w|]; cbn [obind].
    - specialize (H w eq_refl). rewrite bc2_eq by congruence. cbn [obind]. apply afw_chk; [assumption|]. unfold vmul. rewrite map2_len; congruence.
    - now apply afw_chk.
  Qed.
  Lemma neff_chk (d : dataset F) : sized d -> n_eff_chk d = Some (n_eff d).
  Proof.
    intros S. unfold n_eff_chk, n_eff. pose proof (proj1 (proj2 S)) as H. destruct (d_weights d) as [w|]; [|reflexivity].
    specialize (H w eq_refl). rewrite !afw_chk; auto. unfold vmul. rewrite map2_len; auto.
  Qed.
  Lemma unit_sized (d d' : dataset F) : unit_weighted d d' -> sized d -> sized d'.
  Proof.
    intros U (X & W & Fr). unfold sized. rewrite (u_y d d' U), (u_x d d' U). split; [exact X|]. split.
    - intros w Hw. destruct (u_w d d' U) as [E|(E & E')]; [apply W; congruence|]. rewrite E' in Hw. injection Hw as <-. apply repeat_length.
    - intros w Hw. destruct (u_f d d' U) as [E|(E & E')]; [apply Fr; congruence|]. rewrite E' in Hw. injection Hw as <-. apply repeat_length.
  Qed.
  Lemma from_same (d d' : dataset F) : unit_weighted d d' -> sized d -> n_eff d' = n_eff d -> from_dataset_chk d' = from_dataset_chk d.
  Proof.
    intros U S N. pose proof (unit_sized d d' U S) as S'. unfold from_dataset_chk. cbv zeta. rewrite (u_x d d' U), (u_int d d' U).
    assert (L : length (vconst (nrows (d_x d)) (fone : F)) = length (d_y d)) by (unfold vconst, nrows; rewrite repeat_length; apply S).
    rewrite (atw_chk d') by (rewrite ?(u_y d d' U); assumption). rewrite (atw_chk d) by assumption. rewrite (atw M1l d d' U) by lia.
    cbn [obind]. rewrite !neff_chk by assumption. rewrite N. reflexivity.
  Qed.
  Lemma finalize_same (d d' : dataset F) us ui : unit_weighted d d' -> sized d -> (us = true -> n_eff d' = n_eff d) ->
    match finalize_chk d us ui, finalize_chk d' us ui with
    | Some e, Some e' => unit_weighted e e' /\ sized e
    | None, None => True
    | _, _ => False
    end.
  Proof.
    intros U S N. unfold finalize_chk. rewrite (u_y d d' U), (u_x d d' U), (u_off d d' U), (u_int d d' U), (u_std d d' U).
    destruct (d_std d); [exact I|]. destruct (d_intercept d); [exact I|]. cbv zeta.
    pose proof (u_w d d' U) as Uw. pose proof (u_f d d' U) as Uf. destruct S as (X & W & Fr).
    destruct us.
    - rewrite (from_same (Dataset (d_y d) (d_x d) (d_offset d) (d_weights d) (d_freqs d) ui None)
                         (Dataset (d_y d) (d_x d) (d_offset d) (d_weights d') (d_freqs d') ui None)).
      2:{ unfold unit_weighted. cbn. auto 10. }
      2:{ unfold sized. cbn. auto. }
      2:{ pose proof (N eq_refl) as E. unfold n_eff, freq_sum, apply_freq_weights, n_obs in *. rewrite (u_y d d' U) in E. exact E. }
      destruct (from_dataset_chk _) as [s|]; cbn [obind]; [|exact I].
      destruct ui; unfold unit_weighted, sized; cbn; rewrite ?map_length; auto 12.
    - destruct ui; unfold unit_weighted, sized; cbn; rewrite ?map_length; auto 12.
  Qed.
End Chk.

Local Open Scope R_scope.

(** ** Exact arithmetic *)
Section Exact.
  Context {e : MachEps}.
  Lemma R1l (x : R) : fmul fone x = x. Proof. rops. ring. Qed.
  Lemma R1r (x : R) : fmul x fone = x. Proof. rops. ring. Qed.
  Lemma vsum_ones n : vsum (repeat (fone : R) n) = fnat n.
  Proof.
    unfold vsum. rops. induction n as [|n IH]; [reflexivity|]. cbn [repeat fold_right]. rewrite IH, S_INR. rops. ring.
  Qed.
  Section Data.
  Variables d d' : dataset R.
  Hypothesis U : unit_weighted d d'.
  Hypothesis S : sized d.
  Lemma e_nobs : n_obs d' = n_obs d.
  Proof. unfold n_obs. rewrite (u_y d d' U). destruct (u_f d d' U) as [->|(-> & ->)]; [reflexivity|]. apply vsum_ones. Qed.
  Lemma fsum_ones : freq_sum d (repeat fone (length (d_y d))) = n_obs d.
  Proof.
    unfold freq_sum, apply_freq_weights, n_obs. pose proof (proj2 (proj2 S)) as Hf. destruct (d_freqs d) as [f|]; [|apply vsum_ones].
    rewrite (ones_r R1r) by (rewrite (Hf f eq_refl); lia). reflexivity.
  Qed.
  Lemma ones2 n : vmul (repeat fone n) (repeat fone n) = repeat (fone : R) n.
  Proof. apply (ones_l R1l). rewrite repeat_length. lia. Qed.
  Lemma e_sum : sum_weights d' = sum_weights d.
  Proof.
    unfold sum_weights. pose proof (proj1 (proj2 S)) as Hw. destruct (u_w d d' U) as [->|(-> & ->)].
    - destruct (d_weights d) as [w|]; [|apply e_nobs]. apply (fsum R1l d d' U). rewrite (Hw w eq_refl). lia.
    - rewrite (fsum R1l d d' U) by (rewrite repeat_length; lia). apply fsum_ones.
  Qed.
  Lemma e_neff : n_eff d' = n_eff d.
  Proof.
    unfold n_eff. pose proof (proj1 (proj2 S)) as Hw. destruct (u_w d d' U) as [->|(-> & ->)].
    - destruct (d_weights d) as [w|]; [|apply e_nobs]. specialize (Hw w eq_refl). cbv zeta.
      rewrite !(fsum R1l d d' U); [reflexivity| |lia]. unfold vmul. rewrite map2_len; lia.
    - cbv zeta. rewrite ones2, !(fsum R1l d d' U) by (rewrite repeat_length; lia). rewrite fsum_ones. rops.
      destruct (Req_dec (n_obs d) 0) as [->|N]; [unfold Rdiv; ring|]. field. exact N.
  Qed.
  Lemma e_cnt : n_obs d' = n_obs d /\ n_eff d' = n_eff d /\ sum_weights d' = sum_weights d.
  Proof. exact (conj e_nobs (conj e_neff e_sum)). Qed.
  End Data.

  Lemma e_std (ft : fit R) d' : unit_weighted (f_data ft) d' -> sized (f_data ft) -> same_std ft d'.
  Proof.
    intros U S y x off f ic Ly Lx Lf.
    set (a := Dataset y x off (d_weights (f_data ft)) (Some f) ic None). set (b := Dataset y x off (d_weights d') (Some f) ic None).
    assert (V : unit_weighted a b).
    { unfold unit_weighted, a, b. cbn. rewrite Ly. repeat (split; [reflexivity|]). split; [exact (u_w _ _ U)|now left]. }
    assert (T : sized a).
    { unfold sized, a. cbn. rewrite Ly. split; [exact Lx|]. split; [apply S|]. intros f' [= <-]. exact Lf. }
    apply (from_same R1l a b V T). now apply e_neff.
  Qed.

  Lemma vdivs_const (c : R) n : forall v, (length v <= n)%nat -> vdiv v (repeat c n) = vdivs (F := R) v c.
  Proof.
    unfold vdiv, vdivs. induction n as [|n IH]; intros [|x v] L; cbn in *; try reflexivity; [lia|]. rewrite IH by lia. reflexivity.
  Qed.
  Lemma map_repeat {A B} (f : A -> B) c n : map f (repeat c n) = repeat (f c) n.
  Proof. induction n; cbn; congruence. Qed.
  Lemma map2_repeat {A B C} (f : A -> B -> C) a b n : map2 f (repeat a n) (repeat b n) = repeat (f a b) n.
  Proof. induction n; cbn; congruence. Qed.
  Lemma map2_maps {A B C D} (h : B -> C -> D) (f : A -> B) (g : A -> C) l : map2 h (map f l) (map g l) = map (fun x => h (f x) (g x)) l.
  Proof. induction l; cbn; congruence. Qed.

  Lemma sum_list : forall l : list R, vsum l = sumn (length l) (vg l).
  Proof.
    induction l as [|x l IH]; [reflexivity|]. cbn [length]. rewrite sumn_front. cbn. unfold vsum in IH. cbn in IH. rewrite IH. reflexivity.
  Qed.

  Lemma e_dl (g : Glm R) inv (ft : fit R) d' : unit_weighted (f_data ft) d' -> sized (f_data ft) -> (length (f_y_hat ft) <= length (d_y (f_data ft)))%nat ->
    spread (f_data ft) \/ d_weights d' = d_weights (f_data ft) -> dispersion_loo g inv (on_data d' ft) = dispersion_loo g inv ft.
  Proof.
    intros U S Ly Sp. unfold dispersion_loo. destruct (free_dispersion g); [|cbn [on_data f_data]; rewrite (u_y _ _ U); reflexivity].
    cbv zeta. rewrite (q_pear R1l g ft d' U Ly), (q_lev R1r g inv ft d' U S), (q_dev_terms R1l g ft d' U Ly), (q_dev R1l g ft d' U Ly).
    rewrite (q_ndf ft d' (e_cnt _ _ U S)).
    destruct (leverage g inv ft) as [h| | |]; try reflexivity. cbn [bind]. cbn [on_data f_data]. set (d := f_data ft) in *.
    set (t := vadd (deviance_terms g ft) _).
    assert (Lt : (length t <= length (d_y d))%nat).
    { unfold t, vadd. etransitivity; [apply (proj1 (map2_le _ _ _))|]. apply dev_terms_le, Ly. }
    rewrite (afw R1l d d' U t Lt). f_equal. change (rank (on_data d' ft)) with (rank ft).
    set (tot := map _ (apply_freq_weights d t)).
    assert (Lo : (length tot <= length (d_y d))%nat).
    { unfold tot. rewrite map_length. unfold apply_freq_weights. destruct (d_freqs d); [|exact Lt].
      unfold vmul. etransitivity; [apply (proj2 (map2_le _ _ _))|]. exact Lt. }
    pose proof (proj1 (proj2 S)) as Hw. pose proof (proj2 (proj2 S)) as Hf. fold d in Hw, Hf. pose proof (u_w d d' U) as Uw.
    destruct (d_weights d) as [w|] eqn:Ew.
    - destruct Uw as [->|(E & _)]; [|discriminate]. specialize (Hw w eq_refl).
      assert (L2 : length (vmul w w) = length (d_y d)) by (unfold vmul; rewrite map2_len; lia).
      unfold freq_sum. rewrite !(afw R1l d d' U) by lia. reflexivity.
    - destruct Uw as [->|(_ & Ew')].
      + destruct (u_f d d' U) as [->|(-> & ->)]; [reflexivity|]. rewrite map_repeat, vdivs_const by exact Lo. f_equal. rops. ring.
      + rewrite Ew'. unfold freq_sum. rewrite !(afw R1l d d' U) by (rewrite ?ones2, repeat_length; lia). rewrite ones2.
        assert (Sp' : spread d) by (destruct Sp as [Sp|Sp]; [exact Sp|congruence]). unfold spread, nobs in Sp'.
        unfold apply_freq_weights, ndf, n_obs, frv in *. fold d. destruct (d_freqs d) as [f|] eqn:Ef.
        * specialize (Hf f eq_refl). rewrite (ones_r R1r) by lia. unfold vsub, vscale, vdiv. rewrite map2_maps, map_map, map2_maps.
          f_equal. apply map_ext_in. intros x Hx. rops. apply In_nth with (d := 0) in Hx as (i & Hi & <-).
          assert (N : nth i f 0 <> sumn (length (d_y d)) (vg f)) by (apply Sp'; lia).
          rewrite sum_list, Hf. field. intros Z. apply N. lra.
        * rewrite map_repeat. unfold vsub, vscale, vdiv. rewrite map2_repeat, map_repeat, map2_repeat.
          change (map2 fdiv tot) with (vdiv tot). rewrite vdivs_const by exact Lo.
          destruct (Nat.eq_dec (length (d_y d)) 0) as [En|En].
          { destruct tot; [reflexivity|cbn in Lo; lia]. }
          f_equal. rewrite vsum_ones. rops. field. intros Z. apply (Sp' 0%nat ltac:(lia)). rewrite sumn_const. lra.
  Qed.
End Exact.

(** ** The builder *)
Section Build.
  Context {S : Type} {SOps : FloatOps S} {F : Type} {Ops : FloatOps F}.
  Hypothesis M1l : forall x : F, fmul fone x = x.
  Hypothesis N1 : fnat 1 = (fone : F).
  Variable cast : S -> F.
  Notation after ss := (fold_left apply_setter ss builder_new).
  Lemma after_w ss w : b_weights (after ss) = Some w -> In (SetVar w) ss.
  Proof.
    induction ss as [|s ss IH] using rev_ind; [discriminate|]. rewrite fold_left_app. intros H. apply in_or_app.
    destruct s; cbn in H; try (left; now apply IH). injection H as ->. right. now left.
  Qed.
  Lemma after_f ss f : b_freqs (after ss) = Some f -> exists fr, f = map fnat fr /\ In (SetFreq fr) ss.
  Proof.
    induction ss as [|s ss IH] using rev_ind; [discriminate|]. rewrite fold_left_app. intros H.
    destruct s; cbn in H; try (destruct (IH H) as (fr & E & I); exists fr; split; [exact E|]; apply in_or_app; now left).
    injection H as <-. eexists. split; [reflexivity|]. apply in_or_app. right. now left.
  Qed.
  Lemma after_s ss : In NoStandardize ss -> b_standardize (after ss) = false.
  Proof.
    induction ss as [|s ss IH] using rev_ind; [contradiction|]. rewrite fold_left_app. intros H. apply in_app_or in H as [H|[->|[]]]; [|reflexivity].
    destruct s; cbn; auto.
  Qed.
  Lemma convert_len fam : forall ys i y, convert_y cast fam i ys = Ok y -> length y = length ys.
  Proof.
    induction ys as [|v ys IH]; intros i y H; cbn in H; [now injection H as <-|]. destruct (into_float cast fam v); [|discriminate].
    specialize (IH (Datatypes.S i)). destruct (convert_y cast fam (Datatypes.S i) ys); try discriminate. cbn in H. injection H as <-. cbn. now rewrite (IH a eq_refl).
  Qed.
  Lemma build_unit fam ys x ss s : adds_ones (length ys) ss s -> weights_for (length ys) ss ->
    (In NoStandardize ss \/ forall d d' : dataset F, unit_weighted d d' -> sized d -> n_eff d' = n_eff d) ->
    unit_outcome (build_with cast fam ys x ss) (build_with cast fam ys x (ss ++ [s])).
  Proof.
    intros A (Ww & Wf) E. unfold build_with. rewrite fold_left_app. cbn [fold_left].
    pose proof (after_w ss) as Aw. pose proof (after_f ss) as Af. pose proof (after_s ss) as As.
    set (b := fold_left apply_setter ss builder_new) in *. set (b' := apply_setter b s).
    assert (B : b_offset b' = b_offset b /\ b_standardize b' = b_standardize b /\ b_intercept b' = b_intercept b /\ b_error b' = b_error b /\
      ones_or (length ys) (b_weights b) (b_weights b') /\ ones_or (length ys) (b_freqs b) (b_freqs b')).
    { unfold b'. destruct A as [(-> & A)|(-> & A)]; cbn.
      - assert (Ew : b_weights b = None) by (destruct (b_weights b) as [w|]; [destruct (A w (Aw w eq_refl))|reflexivity]). rewrite Ew.
        repeat (split; [reflexivity|]). split; [right; auto|now left].
      - assert (Ef : b_freqs b = None) by (destruct (b_freqs b) as [f|]; [destruct (Af f eq_refl) as (fr & _ & I); destruct (A fr I)|reflexivity]). rewrite Ef.
        repeat (split; [reflexivity|]). split; [now left|right]. split; [reflexivity|]. rewrite map_repeat, N1. reflexivity. }
    destruct B as (B1 & B2 & B3 & B4 & B5 & B6). unfold build. rewrite B1, B2, B3, B4.
    destruct (b_error b); [reflexivity|]. cbv zeta. destruct (length ys =? nrows x) eqn:El; cbn [negb]; [|reflexivity].
    apply Nat.eqb_eq in El. destruct (match b_offset b with Some off => negb (length ys =? length off) | None => false end); [reflexivity|].
    destruct (convert_y cast fam 0 ys) as [y| | |] eqn:Ey; try reflexivity. apply convert_len in Ey. cbn [bind].
    set (d0 := Dataset y x (b_offset b) (b_weights b) (b_freqs b) false None).
    set (d0' := Dataset y x (b_offset b) (b_weights b') (b_freqs b') false None).
    assert (U : unit_weighted d0 d0').
    { unfold unit_weighted, d0, d0'. cbn. rewrite Ey. auto 10. }
    assert (Sz : sized d0).
    { unfold sized, d0. cbn. unfold nrows in El. split; [lia|]. rewrite Ey. split; [intros w Hw; apply Ww, Aw, Hw|].
      intros f Hf. destruct (Af f Hf) as (fr & -> & I). rewrite map_length. now apply Wf. }
    pose proof (finalize_same M1l d0 d0' (b_standardize b) (b_intercept b) U Sz) as K.
    assert (K' : b_standardize b = true -> n_eff d0' = n_eff d0).
    { intros Hs. destruct E as [E|E]; [rewrite As in Hs by exact E; discriminate|]. now apply E. }
    specialize (K K'). destruct (finalize_chk d0 _ _) as [d1|], (finalize_chk d0' _ _) as [d1'|]; try contradiction; [exact K|reflexivity].
  Qed.
End Build.

(** ** The statements *)
Lemma C94_fit_lemma : forall (e : MachEps) (g : Glm R) solveh sfuel (d d' : dataset R) o,
  unit_weighted d d' -> sized d ->
  regression g solveh sfuel d' o = on_data_outcome d' (regression g solveh sfuel d o).
Proof. intros e g solveh sfuel d d' o U S. now apply (u_regression R1l R1r). Qed.

Lemma C94_statistics_lemma : forall (e : MachEps) (g : Glm R) solveh sfuel (d d' : dataset R) o ft,
  unit_weighted d d' -> sized d -> regression g solveh sfuel d o = Ok ft ->
  forall solveh' sfuel' inv ds m,
  (m = Mresid_student -> spread d \/ d_weights d' = d_weights d) ->
  fresh g solveh' inv sfuel' ds (on_data d' ft) m = fresh g solveh' inv sfuel' ds ft m.
Proof.
  intros e g solveh sfuel d d' o ft U S E solveh' sfuel' inv ds m H. destruct (reg_le g solveh sfuel d o ft S E) as (D & L). rewrite <- D in *.
  apply (u_fresh R1l R1r); auto. intros _. split; [exact (e_cnt _ _ U S)|]. split; [now apply e_std|]. intros Hm. apply e_dl; auto.
Qed.

Lemma C94_build_lemma : forall (e : MachEps) (S : Type) (SOps : FloatOps S) (cast : S -> R) fam ys x ss s,
  adds_ones (length ys) ss s -> weights_for (length ys) ss ->
  unit_outcome (build_with cast fam ys x ss) (build_with cast fam ys x (ss ++ [s])).
Proof.
  intros e S SOps cast fam ys x ss s A W. apply (build_unit R1l); auto. right. intros d d' U Sz. now apply e_neff.
Qed.

Section Float.
  Variables prec emax : Z.
  Context (Hprec : Prec_gt_0 prec) (Hmax : Prec_lt_emax prec emax).
  Variables (lm : libm) (nn : bool).
  Notation B := (binary_float prec emax).
  #[local] Instance bops : FloatOps B := bin_ops prec emax Hprec Hmax lm nn.
  Lemma B1l (x : B) : fmul fone x = x. Proof. apply mult_one_l. Qed.
  Lemma B1r (x : B) : fmul x fone = x. Proof. apply mult_one_r. Qed.
  Lemma float_fit (g : Glm B) solveh sfuel d d' o : unit_weighted d d' -> sized d ->
    regression g solveh sfuel d' o = on_data_outcome d' (regression g solveh sfuel d o).
  Proof. intros U S. now apply (u_regression B1l B1r). Qed.
  Lemma float_stat (g : Glm B) solveh sfuel d d' o ft : unit_weighted d d' -> sized d -> regression g solveh sfuel d o = Ok ft ->
    forall solveh' sfuel' inv ds m, ~ counts g d m -> fresh g solveh' inv sfuel' ds (on_data d' ft) m = fresh g solveh' inv sfuel' ds ft m.
  Proof.
    intros U S E solveh' sfuel' inv ds m H. destruct (reg_le g solveh sfuel d o ft S E) as (D & L). rewrite <- D in *.
    apply (u_fresh B1l B1r); auto. intros K. contradiction.
  Qed.
End Float.

Lemma C94_float_lemma : forall prec emax Hprec Hmax lm nn,
  let Ops := bin_ops prec emax Hprec Hmax lm nn in
  forall (g : Glm (binary_float prec emax)) solveh sfuel d d' o,
  unit_weighted d d' -> sized d ->
  regression g solveh sfuel d' o = on_data_outcome d' (regression g solveh sfuel d o) /\
  forall ft, regression g solveh sfuel d o = Ok ft ->
  forall solveh' sfuel' inv ds m, ~ counts g d m ->
    fresh g solveh' inv sfuel' ds (on_data d' ft) m = fresh g solveh' inv sfuel' ds ft m.
Proof.
  intros prec emax Hprec Hmax lm nn Ops g solveh sfuel d d' o U S. split; [now apply float_fit|].
  intros ft E. now apply (float_stat prec emax Hprec Hmax lm nn g solveh sfuel d d' o ft).
Qed.
