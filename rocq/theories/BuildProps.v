(** The lemmas behind PropsBuild.v. *)
From Coq Require Import List Bool Arith Lia ZArith Reals Lra Floats.SpecFloat Permutation.
From Flocq Require Import Core BinarySingleNaN.
From Coq Require Import List.
From Verif Require Import Num Arr Families Data Reg Irls Model F64 RInst Lin SpecGlm SpecData SpecBuild
  BuildGen DataReal BuildReal F64Flocq Wit WitLoop WitReal.
Import ListNotations.

Section Gen2.
  Context {S : Type} {SOps : FloatOps S} {F : Type} {Ops : FloatOps F}.
  Variable cast : S -> F.

  Lemma opt_ext {A} (o o' : option A) (P : A -> Prop) :
    (forall a, o = Some a <-> P a) -> (forall a, o' = Some a <-> P a) -> o = o'.
  Proof.
    intros H1 H2. destruct o as [a|].
    - symmetry. apply H2, H1. reflexivity.
    - destruct o' as [a|]; [|reflexivity]. exfalso.
      assert (None = Some a) by (apply H1, H2; reflexivity). discriminate.
  Qed.

  Lemma n_eff_ext (d d' : dataset F) : length (d_y d) = length (d_y d') -> d_weights d = d_weights d' ->
    d_freqs d = d_freqs d' -> n_eff d = n_eff d'.
  Proof.
    intros H1 H2 H3. unfold n_eff, n_obs, freq_sum, apply_freq_weights. now rewrite H1, H2, H3.
  Qed.

  Lemma C32_accepts_lemma fam ys x ss : ~ repeated ss -> ~ misshapen ys x ss ->
    (forall y, In y ys -> into_float cast fam y <> None) ->
    (exists y, Forall2 (fun a b => into_float cast fam a = Some b) ys y /\
       forall d, build_with cast fam ys x ss = Ok d -> carries ss y x d) /\
    (In NoStandardize ss -> exists d, build_with cast fam ys x ss = Ok d) /\
    (~ In NoStandardize ss -> weights_fit ys ss ->
       forall d0 : dataset F, length (d_y d0) = length ys ->
         (forall w, d_weights d0 = Some w <-> In (SetVar w) ss) ->
         (forall f, d_freqs d0 = Some f <-> exists k, In (SetFreq k) ss /\ f = map fnat k) ->
         if (2 <=? length ys) && negb (fltb fone (n_eff d0))
         then build_with cast fam ys x ss = Panic
         else exists d, build_with cast fam ys x ss = Ok d).
  Proof.
    intros H1 H2 H3.
    destruct (build_accepts cast fam ys x ss H1 H2 H3) as (y & Hy & Ha & Hb).
    split; [|split].
    - exists y. split; [assumption|]. intros d Hd.
      destruct (misshapen_dec cast fam ys x ss H1) as [_ Hfin]. specialize (Hfin H2). cbv zeta in Hfin.
      rewrite Hfin in Hd. unfold finish in Hd.
      destruct (convert_ok cast fam ys H3) as (y' & Hy' & Hf). rewrite Hy' in Hd. cbn [bind] in Hd.
      destruct (finalize_chk _ _ _) as [d'|] eqn:E; [|discriminate]. injection Hd as ->.
      assert (y' = y).
      { clear -Hf Hy. revert y Hy. induction Hf as [|a b l l' H Hf IH]; intros y Hy; inversion Hy; subst; [reflexivity|].
        f_equal; [congruence|]. now apply IH. }
      subst y'. now apply (finalize_carries ss y x).
    - intros Hs. destruct (Ha Hs) as (d & Hd & _). now exists d.
    - intros Hs Hw d0 Hl Hw0 Hf0. destruct (Hb Hs Hw) as (d1 & D1 & D2 & D3 & Hp & Hok).
      assert (E : n_eff d1 = n_eff d0).
      { apply n_eff_ext.
        - rewrite D1, Hl. symmetry. now apply Forall2_len in Hy.
        - apply (opt_ext _ _ (fun w => In (SetVar w) ss)); assumption.
        - apply (opt_ext _ _ (fun f => exists k, In (SetFreq k) ss /\ f = map fnat k)); assumption. }
      rewrite E in Hp, Hok. unfold fgtb in Hp, Hok.
      destruct (Nat.leb_spec 2 (length ys)) as [L|L]; cbn [andb].
      + destruct (fltb fone (n_eff d0)); cbn [negb].
        * destruct Hok as (d & Hd & _); [now intros [_ ?]|now exists d].
        * apply Hp. now split.
      + destruct Hok as (d & Hd & _); [lia|now exists d].
  Qed.
End Gen2.

(** ** C34 *)
Local Open Scope R_scope.
Section R34.
  Context {e : MachEps}.
  Definition float_family (f : family) : bool :=
    match f with FPoisson | FBinomial _ => false | _ => true end.

  Lemma C34_exact_lemma f :
    (float_family f = true -> forall x : R,
       into_float (fun x => x) f (YFloat x) = Some x /\ y_dom f x \/
       into_float (fun x => x) f (YFloat x) = None /\ ~ y_dom f x) /\
    (forall b v, into_float (S := R) (fun x => x) f (YBool b) = Some v -> y_dom f v /\ v = if b then 1 else 0) /\
    (forall k v, into_float (S := R) (fun x => x) f (YInt k) = Some v -> v = INR k /\
       (match f with FBinomial N => (k <= N)%nat | _ => True end -> y_dom f v)).
  Proof.
    split; [|split].
    - intros Hf x. destruct f; cbn in *; try discriminate; rops; unfold Rleb;
        repeat destruct (Rle_dec _ _); cbn; try (left; split; [reflexivity|lra]);
        try (right; split; [reflexivity|lra]).
    - intros b v. destruct f; cbn; try discriminate; rops; intros [= <-]; destruct b; split; lra.
    - intros k v. destruct f; cbn; try discriminate; rops; intros [= <-]; split; try reflexivity; intros H.
      + apply pos_INR.
      + split; [apply pos_INR|now apply le_INR].
  Qed.
End R34.

Section I34.
  Variables prec emax : Z.
  Context (prec_gt_0_ : Prec_gt_0 prec) (prec_lt_emax_ : Prec_lt_emax prec emax).
  Variable lm : libm.
  Variable nn : bool.
  Notation ops := (ieee_ops prec emax lm nn).

  Lemma C34_unit f x : (f = FLogistic \/ f = FCloglog) -> valid_binary prec emax x = true ->
    (@into_float _ ops _ ops (fun x => x) f (YFloat x) = Some x /\
       is_finite_SF x = true /\ 0 <= SF2R radix2 x <= 1) \/
    (@into_float _ ops _ ops (fun x => x) f (YFloat x) = None /\
       ~ (is_finite_SF x = true /\ 0 <= SF2R radix2 x <= 1)).
  Proof.
    intros Hf Hx.
    assert (E : @into_float _ ops _ ops (fun x => x) f (YFloat x) =
                if SFleb (S754_zero false) x && SFleb x (SFone prec emax) then Some x else None)
      by (destruct Hf as [-> | ->]; reflexivity).
    rewrite E. clear E Hf.
    destruct (val_B prec emax x Hx) as [b ->].
    rewrite (one_equiv prec emax prec_gt_0_ prec_lt_emax_).
    change (S754_zero false) with (B2SF (B754_zero false : binary_float prec emax)).
    change (SFleb (B2SF (B754_zero false : binary_float prec emax)) (B2SF b)) with (Bleb (B754_zero false) b).
    change (SFleb (B2SF b) (B2SF Bone)) with (Bleb b (Bone : binary_float prec emax)).
    destruct (is_finite b) eqn:Fb.
    - rewrite !Bleb_correct by (try assumption; try reflexivity; apply is_finite_Bone).
      rewrite Bone_correct. rewrite SF2R_B2SF, is_finite_SF_B2SF.
      change (B2R (B754_zero false)) with 0.
      destruct (Rle_bool_spec 0 (B2R b)); destruct (Rle_bool_spec (B2R b) 1); cbn [andb].
      + left. repeat split; assumption.
      + right. split; [reflexivity|]. intros (_ & ? & ?). lra.
      + right. split; [reflexivity|]. intros (_ & ? & ?). lra.
      + right. split; [reflexivity|]. intros (_ & ? & ?). lra.
    - right. split.
      + destruct b as [?|[]| |]; try discriminate; cbn; try reflexivity.
        * pose proof (@is_finite_Bone prec emax prec_gt_0_ prec_lt_emax_) as H1.
          destruct (Bone : binary_float prec emax); try discriminate; reflexivity.
      + intros (h & _). rewrite is_finite_SF_B2SF in h. congruence.
  Qed.

  (** The positive families reject exactly what compares below or equal to zero. *)
  Lemma C34_positive f x : (match f with FExponential | FExponentialLog | FGamma | FGammaLog
                              | FInvGaussian | FInvGaussianLog => True | _ => False end) ->
    @into_float _ ops _ ops (fun x => x) f (YFloat x) =
    match x with
    | S754_nan | S754_infinity false | S754_finite false _ _ => Some x
    | _ => None
    end.
  Proof. destruct f; intros []; destruct x as [[]|[]| |[] ? ?]; reflexivity. Qed.
End I34.

Definition o32 : FloatOps spec_float := f32_ops lm0 false.

Lemma C34_witness :
  (forall f, (match f with FLinear | FExponential | FExponentialLog | FGamma | FGammaLog
                | FInvGaussian | FInvGaussianLog => True | _ => False end) ->
     @build_with _ o64 _ o64 (fun x => x) f [YFloat S754_nan; YFloat (nf 1)] (Mat 0 [[]; []]) [] =
     Ok (Dataset [S754_nan; nf 1] (Mat 1 [[nf 1]; [nf 1]]) None None None true (Some (Std [] [])))) /\
  (exists d, @build_with _ o64 _ o32 (sf_cast 24 128) FGamma
               [YFloat (S754_finite false 4503599627370496 (-252)); YFloat (nf 1)]
               (Mat 0 [[]; []]) [] = Ok d /\ nth 0 (d_y d) S754_nan = S754_zero false) /\
  (exists d, @build_with _ o64 _ o64 (fun x => x) (FBinomial 3) [YInt 5; YInt 1] (Mat 0 [[]; []]) [] = Ok d /\
             d_y d = [nf 5; nf 1]).
Proof.
  split; [|split].
  - intros f Hf. destruct f; destruct Hf; vm_compute; reflexivity.
  - eexists. split; [vm_compute; reflexivity|reflexivity].
  - eexists. split; [vm_compute; reflexivity|reflexivity].
Qed.

(** ** C35, C36 *)
Lemma C35_witness :
  (exists d, @build_with _ o64 _ o64 (fun x => x) FLinear (map (fun k => YFloat (nf k)) [1; 2; 4]%nat)
               (Mat 1 [[nf 0]; [nf 1]; [nf 3]]) [SetFreq [2]%nat] = Ok d /\
             length (d_y d) = 3%nat /\ @n_obs _ o64 d = nf 2) /\
  (exists d, @build_with _ o64 _ o64 (fun x => x) FLinear (map (fun k => YFloat (nf k)) [1; 2; 4]%nat)
               (Mat 1 [[nf 0]; [nf 1]; [nf 3]]) [SetVar [nf 1; nf 7]; NoStandardize] = Ok d /\
             d_weights d = Some [nf 1; nf 7]).
Proof.
  split; eexists; (split; [vm_compute; reflexivity|]); [split|]; vm_compute; reflexivity.
Qed.

Lemma C36_witness :
  @build_with _ o64 _ o64 (fun x => x) FLinear (map (fun k => YFloat (nf k)) [1; 2; 4]%nat)
     (Mat 1 [[nf 0]; [nf 1]; [nf 3]]) [SetFreq [1; 0; 0]%nat] = Panic.
Proof. vm_compute. reflexivity. Qed.

(** The effective sample size of [n] observations with variance weights [w] and frequency weights
    [f]. *)
Definition eff_size (n : nat) (w f : option (list R)) : R :=
  let fr i := match f with Some f => vg f i | None => 1 end in
  match w with
  | None => sumn n fr
  | Some w => sumn n (fun i => fr i * vg w i) * sumn n (fun i => fr i * vg w i) /
              sumn n (fun i => fr i * (vg w i * vg w i))
  end.

Section R36.
  Context {e : MachEps} {S : Type} {SOps : FloatOps S}.
  Variable cast : S -> R.

  Lemma eff_size_n_eff n w f :
    (forall l, w = Some l -> length l = n) -> (forall l, f = Some l -> length l = n) ->
    n_eff (Dataset (repeat 0 n) (Mat 0 (repeat [] n)) None w f false None) = eff_size n w f.
  Proof.
    intros Hw Hf. set (d := Dataset _ _ _ _ _ _ _).
    assert (Hn : nobs d = n) by (unfold nobs; cbn; apply repeat_length).
    rewrite neffv_spec.
    - unfold neffv, eff_size, wtv, frv, vwv. rewrite Hn. clear Hn. unfold d. clear d.
      cbn [d_weights d_freqs]. destruct w as [w|]; reflexivity.
    - split; rewrite ?Hn; clear Hn; unfold d; clear d; cbn; auto.
      + repeat split; cbn; [apply repeat_length|]. apply Forall_forall. intros r Hr.
        apply repeat_spec in Hr. now subst.
      + destruct f as [f|]; auto.
      + destruct w as [w|]; auto.
      + discriminate.
  Qed.

  Lemma C36_lemma fam ys x ss : ~ repeated ss -> ~ misshapen ys x ss ->
    (forall y, In y ys -> into_float cast fam y <> None) -> weights_fit ys ss ->
    ~ In NoStandardize ss ->
    forall w f, (forall l, w = Some l <-> In (SetVar l) ss) ->
                (forall l, f = Some l <-> exists k, In (SetFreq k) ss /\ l = map INR k) ->
    (build_with cast fam ys x ss = Panic <->
     (2 <= length ys)%nat /\ ~ 1 < eff_size (length ys) w f).
  Proof.
    intros H1 H2 H3 H4 H5 w f Hw Hf.
    assert (Lw : forall l, w = Some l -> length l = length ys).
    { intros l Hl. apply Hw in Hl. now apply (proj2 H4). }
    assert (Lf : forall l, f = Some l -> length l = length ys).
    { intros l Hl. apply Hf in Hl. destruct Hl as (k & Hk & ->). rewrite map_length.
      now apply (proj1 H4). }
    destruct (C32_accepts_lemma cast fam ys x ss H1 H2 H3) as (_ & _ & H).
    specialize (H H5 H4 (Dataset (repeat 0 (length ys)) (Mat 0 (repeat [] (length ys))) None w f false None)).
    cbn [d_y d_weights d_freqs] in H.
    specialize (H (repeat_length _ _) Hw Hf). rewrite eff_size_n_eff in H by assumption.
    change (@fltb R _ fone (eff_size (length ys) w f)) with (Rltb 1 (eff_size (length ys) w f)) in H.
    destruct (Nat.leb_spec 2 (length ys)) as [L|L]; cbn [andb] in H.
    - destruct (Rltb 1 (eff_size (length ys) w f)) eqn:E; cbn [negb] in H.
      + destruct H as [d ->]. split; [discriminate|]. intros [_ h]. apply Rltb_true in E. easy.
      + rewrite H. split; [|reflexivity]. intros _. split; [assumption|]. apply Rltb_false in E. lra.
    - destruct H as [d ->]. split; [discriminate|]. lia.
  Qed.
End R36.

(** A builder call sequence that meets the hypotheses. *)
Definition ssR : list (setter R) := [SetVar [1; 2; 2]; NoConstant; SetOffset [0; 0; 1]; SetFreq [1; 1; 0]%nat].
Definition ysR : list (yval R) := [YFloat 1; YFloat 2; YFloat 4].
Definition xR : mat R := Mat 1 [[0]; [1]; [3]].
Lemma build_example (e : MachEps) :
  ~ repeated ssR /\ ~ misshapen ysR xR ssR /\
  (forall y, In y ysR -> into_float (fun x => x) FGamma y <> None) /\ weights_fit ysR ssR /\
  ~ In NoStandardize ssR /\ 1 < eff_size 3 (Some [1; 2; 2]) (Some (map INR [1; 1; 0]%nat)) /\
  ~ 1 < eff_size 3 None (Some (map INR [1; 0; 0]%nat)) /\
  Permutation ssR (rev ssR) /\ repeated (F := R) [NoConstant; SetFreq [1]%nat; NoStandardize; SetFreq [2]%nat] /\
  misshapen ysR xR [SetOffset [0; 0]] /\
  first_none (into_float (S := R) (fun x => x) FGamma) [YFloat 1; YFloat (-1); YFloat 0] 1.
Proof.
  refine (conj _ (conj _ (conj _ (conj _ (conj _ (conj _ (conj _ (conj _ (conj _ (conj _ _)))))))))).
  - unfold repeated; cbn. lia.
  - intros [H|(off & H & Hl)]; [now apply H|]. cbn in H.
    repeat destruct H as [H|H]; try discriminate; try contradiction. injection H as <-. now apply Hl.
  - intros y Hy. cbn in Hy. repeat destruct Hy as [<-|Hy]; try contradiction; cbn; rops; unfold Rleb;
      destruct (Rle_dec _ _); try lra; discriminate.
  - split; intros l H; cbn in H; repeat destruct H as [H|H]; try discriminate; try contradiction;
      injection H as <-; reflexivity.
  - cbn. intros H; repeat destruct H as [H|H]; try discriminate; contradiction.
  - cbn. unfold vg; cbn. lra.
  - cbn. unfold vg; cbn. lra.
  - apply Permutation_rev.
  - right; left; cbn; lia.
  - right. exists [0; 0]. split; [now left|]. cbn. lia.
  - split.
    + exists (YFloat (-1)). split; [reflexivity|]. cbn; rops; unfold Rleb; destruct (Rle_dec _ _); [reflexivity|lra].
    + intros [|[|j]] a Hj Ha; try lia. injection Ha as <-. cbn; rops; unfold Rleb; destruct (Rle_dec _ _); [lra|discriminate].
Qed.

(** ** C33 for the fit options *)
Section Opts.
  Context {F : Type} {Ops : FloatOps F}.
  Lemma C33_options_lemma (g : Glm F) solveh sfuel d o os :
    fit_with_options g solveh sfuel d o os =
      regression g solveh sfuel d
        (FitOptions (last_max_iter os (o_max_iter o)) (last_tol os (o_tol o))
                    (last_l1 os (o_l1 o)) (last_l2 os (o_l2 o)) (o_init o)) /\
    fit_with g solveh sfuel d os =
      regression g solveh sfuel d
        (FitOptions (last_max_iter os 128) (last_tol os feps) (last_l1 os fzero) (last_l2 os fzero)
                    None).
  Proof. unfold fit_with, fit_with_options. rewrite !opts_state. split; reflexivity. Qed.
  Lemma C33_swap_lemma (g : Glm F) solveh sfuel d o os a b os' :
    match a, b with
    | SetMaxIter _, SetMaxIter _ | SetTol _, SetTol _ | SetL1 _, SetL1 _ | SetL2 _, SetL2 _ => False
    | _, _ => True
    end ->
    fit_with_options g solveh sfuel d o (os ++ a :: b :: os') =
    fit_with_options g solveh sfuel d o (os ++ b :: a :: os').
  Proof.
    intros H. unfold fit_with_options. f_equal. rewrite !fold_left_app. cbn [fold_left]. f_equal.
    generalize (fold_left apply_opt os o). intros o'. destruct a, b; try contradiction; reflexivity.
  Qed.
End Opts.

Lemma C34_unit_lemma prec emax : (prec, emax) = (53%Z, 1024%Z) \/ (prec, emax) = (24%Z, 128%Z) ->
  forall lm nn f x, (f = FLogistic \/ f = FCloglog) -> valid_binary prec emax x = true ->
    let ops := ieee_ops prec emax lm nn in
    (@into_float _ ops _ ops (fun x => x) f (YFloat x) = Some x /\
       is_finite_SF x = true /\ (0 <= SF2R radix2 x <= 1)%R) \/
    (@into_float _ ops _ ops (fun x => x) f (YFloat x) = None /\
       ~ (is_finite_SF x = true /\ (0 <= SF2R radix2 x <= 1)%R)).
Proof.
  intros [[= -> ->] | [= -> ->]] lm nn f x Hf Hx; apply C34_unit; auto; reflexivity.
Qed.
