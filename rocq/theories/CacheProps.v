(** The cells of a fit never change what its methods return. *)
From Coq Require Import List Bool Arith Lia Eqdep_dec.
From Verif Require Import Num Arr Families Data Reg Irls FitM Cache SpecCache.
Import ListNotations.

Lemma set_val_same : forall F c (v : cell_ty F c) k, k_val (set_val c v k) c = Some v.
Proof.
  intros. cbn. destruct (cell_eq_dec c c) as [e|n]; [|congruence].
  rewrite (UIP_dec cell_eq_dec e eq_refl). reflexivity.
Qed.

Lemma set_val_other : forall F c c' (v : cell_ty F c) k,
  c <> c' -> k_val (set_val c v k) c' = k_val k c'.
Proof. intros. cbn. destruct (cell_eq_dec c c'); [contradiction|reflexivity]. Qed.

Section Sound.
  Context {F : Type} {Ops : FloatOps F}.
  Variable g : Glm F.
  Variable solveh : mat F -> list F -> option (list F).
  Variable inv inv' : mat F -> option (mat F).
  Variable sfuel : nat.
  Variable ds : dists F.
  Variable ft : fit F.
  Variable bad : Prop.
  Hypothesis Hinv : forall a, inv' a = inv a \/ (bad /\ inv' a = None).

  (** What a cell holds when full. *)
  Definition content (c : cell) : outcome F (cell_ty F c) :=
    match c with
    | CPhi => Ok (dispersion g ft)
    | CDevTerms => Ok (deviance_terms g ft)
    | CPear => Ok (resid_pear g ft)
    | CCov => covariance g inv ft
    | CFisherInv => fisher_inv g inv ft
    | CFisherStdInv => fisher_std_inv g inv ft
    | CHat => hat g inv ft
    | CNull => null_model_fit g solveh sfuel ft
    end.

  Definition holds (k : cache F) : Prop :=
    forall c v, k_val k c = Some v -> content c = Ok v.

  (** Order in which cells use each other. *)
  Definition level (c : cell) : nat :=
    match c with CCov => 2 | CPhi | CHat => 1 | _ => 0 end.

  Definition idle (n : nat) (k : cache F) : Prop := forall c, level c < n -> k_busy k c = false.

  Definition grows (k k' : cache F) : Prop :=
    forall c v, k_val k c = Some v -> k_val k' c = Some v.

  Definition sound {A} (n : nat) (a : act F A) (o : outcome F A) : Prop :=
    forall k, holds k -> idle n k ->
      holds (snd (a k)) /\ (forall c, k_busy (snd (a k)) c = k_busy k c) /\
      k_reentered (snd (a k)) = k_reentered k /\
      (forall c, n <= level c -> k_val (snd (a k)) c = k_val k c) /\
      grows k (snd (a k)) /\
      (fst (a k) = o \/ (bad /\ fst (a k) = Err LinalgError)).

  Lemma sound_lift : forall A n (o : outcome F A), sound n (lift o) o.
  Proof. intros A n o k Hk Hi. unfold grows. cbn. auto 9. Qed.

  Lemma sound_inv : forall n m, sound n (lift (inv_res inv' m)) (inv_res inv m).
  Proof.
    intros n m k Hk Hi. unfold grows, inv_res. cbn. destruct (Hinv m) as [->|[B ->]]; auto 9.
  Qed.

  Lemma sound_weaken : forall A n n' (a : act F A) o, n <= n' -> sound n a o -> sound n' a o.
  Proof.
    intros A n n' a o L S k Hk Hi.
    destruct (S k Hk) as (H1 & H2 & H3 & H4 & H5 & H6).
    { intros c Hc. apply Hi. lia. }
    repeat split; auto. intros c Hc. apply H4. lia.
  Qed.

  Lemma sound_bind : forall A B n (a : act F A) (f : A -> act F B) o p,
    sound n a o -> (forall x, o = Ok x -> sound n (f x) (p x)) ->
    sound n (abind a f) (bind o p).
  Proof.
    intros A B n a f o p Sa Sf k Hk Hi. unfold abind.
    destruct (Sa k Hk Hi) as (H1 & H2 & H3 & H4 & H5 & H6).
    destruct (a k) as [r k1] eqn:E. cbn in *.
    destruct H6 as [->|[Hb ->]].
    - destruct o as [x| | |]; cbn; auto 9.
      assert (Hi1 : idle n k1) by (intros c Hc; rewrite H2; auto).
      destruct (Sf x eq_refl k1 H1 Hi1) as (G1 & G2 & G3 & G4 & G5 & G6).
      repeat split; auto.
      + intros c. rewrite G2. auto.
      + congruence.
      + intros c Hc. rewrite G4 by assumption. auto.
      + intros c v Hv. auto.
    - cbn. auto 9.
  Qed.

  Lemma sound_bind_ok : forall A B n (a : act F A) (f : A -> act F B) x o,
    sound n a (Ok x) -> sound n (f x) o -> sound n (abind a f) o.
  Proof.
    intros A B n a f x o Sa Sf.
    change o with (bind (Ok x) (fun _ : A => o)).
    apply sound_bind; [assumption|]. intros y [= <-]. assumption.
  Qed.

  Lemma sound_cell : forall c (f : act F (cell_ty F c)),
    sound (level c) f (content c) -> sound (S (level c)) (get_or_try_init c f) (content c).
  Proof.
    intros c f Sf k Hk Hi. unfold get_or_try_init.
    destruct (k_val k c) as [v|] eqn:Ev.
    { cbn. unfold grows. repeat split; auto. left. symmetry. auto. }
    rewrite (Hi c) by lia.
    set (k1 := set_busy c true k).
    assert (Hk1 : holds k1) by exact Hk.
    assert (Hi1 : idle (level c) k1).
    { intros c' Hc'. cbn. destruct (cell_eq_dec c c') as [->|]; [lia|]. apply Hi. lia. }
    destruct (Sf k1 Hk1 Hi1) as (H1 & H2 & H3 & H4 & H5 & H6).
    destruct (f k1) as [o k2] eqn:E. cbn [fst snd] in *.
    assert (B3 : forall c', k_busy (set_busy c false k2) c' = k_busy k c').
    { intros c'. cbn. destruct (cell_eq_dec c c') as [<-|N]; [symmetry; apply Hi; lia|].
      rewrite H2. cbn. destruct (cell_eq_dec c c'); [contradiction|reflexivity]. }
    assert (V3 : k_val (set_busy c false k2) c = None).
    { cbn. rewrite H4 by lia. exact Ev. }
    assert (Q : holds (set_busy c false k2) /\
      (forall c0, k_busy (set_busy c false k2) c0 = k_busy k c0) /\
      k_reentered (set_busy c false k2) = k_reentered k /\
      (forall c0, S (level c) <= level c0 -> k_val (set_busy c false k2) c0 = k_val k c0) /\
      grows k (set_busy c false k2)).
    { repeat split; auto. cbn. intros c0 L. apply H4. lia. }
    destruct Q as (Q1 & Q2 & Q3 & Q4 & Q5).
    destruct o as [v|e| |].
    - rewrite V3.
      assert (Cv : content c = Ok v).
      { destruct H6 as [H6|[_ H6]]; [symmetry; exact H6|discriminate]. }
      cbn [fst snd]. repeat split.
      + intros c' v' Hv'. destruct (cell_eq_dec c c') as [<-|N].
        * rewrite set_val_same in Hv'. injection Hv' as <-. exact Cv.
        * rewrite set_val_other in Hv' by assumption. apply Q1. exact Hv'.
      + exact Q2.
      + exact Q3.
      + intros c' L. rewrite set_val_other by (intros ->; lia). apply Q4. exact L.
      + intros c' v' Hv'. rewrite set_val_other by (intros ->; congruence). apply Q5. exact Hv'.
      + left. symmetry. exact Cv.
    - cbn [fst snd]. repeat split; auto.
    - cbn [fst snd]. repeat split; auto.
    - cbn [fst snd]. repeat split; auto.
  Qed.

  Ltac lev := eapply sound_weaken; [|eassumption]; cbn; lia.
  Ltac okb := eapply sound_bind_ok; [solve [lev | assumption]|].

  Lemma s_dev_terms : sound 1 (k_deviance_terms g ft) (Ok (deviance_terms g ft)).
  Proof. apply (sound_cell CDevTerms). apply sound_lift. Qed.

  Lemma s_deviance : sound 1 (k_deviance g ft) (Ok (deviance g ft)).
  Proof. pose proof s_dev_terms. okb. apply sound_lift. Qed.

  Lemma s_dispersion : sound 2 (k_dispersion g ft) (Ok (dispersion g ft)).
  Proof.
    apply (sound_cell CPhi). cbn [content]. unfold dispersion.
    destruct (free_dispersion g).
    - pose proof s_deviance. okb. apply sound_lift.
    - apply sound_lift.
  Qed.

  Lemma s_pear : sound 1 (k_resid_pear g ft) (Ok (resid_pear g ft)).
  Proof. apply (sound_cell CPear). apply sound_lift. Qed.

  Lemma s_fisher_inv : sound 1 (k_fisher_inv g inv' ft) (fisher_inv g inv ft).
  Proof. apply (sound_cell CFisherInv). apply sound_inv. Qed.

  Lemma s_fisher_std_inv : sound 1 (k_fisher_std_inv g inv' ft) (fisher_std_inv g inv ft).
  Proof. apply (sound_cell CFisherStdInv). apply sound_inv. Qed.

  Lemma s_covariance : sound 3 (k_covariance g inv' ft) (covariance g inv ft).
  Proof.
    apply (sound_cell CCov). cbn [content level]. unfold covariance.
    pose proof s_dispersion. pose proof s_fisher_inv. okb.
    apply sound_bind; [lev|]. intros. apply sound_lift.
  Qed.

  Lemma s_hat : sound 2 (k_hat g inv' ft) (hat g inv ft).
  Proof.
    apply (sound_cell CHat). cbn [content level]. unfold hat.
    pose proof s_fisher_std_inv. cbv zeta.
    apply sound_bind; [lev|]. intros. apply sound_lift.
  Qed.

  Lemma s_leverage : sound 2 (k_leverage g inv' ft) (leverage g inv ft).
  Proof. apply sound_bind; [apply s_hat|]. intros. apply sound_lift. Qed.

  Lemma s_null : sound 1 (k_null_model g solveh sfuel ft) (null_model_fit g solveh sfuel ft).
  Proof. apply (sound_cell CNull). apply sound_lift. Qed.

  Lemma s_terms_loo : sound 2 (k_deviance_terms_loo g inv' ft) (deviance_terms_loo g inv ft).
  Proof.
    pose proof s_dev_terms. pose proof s_pear. pose proof s_leverage.
    unfold k_deviance_terms_loo, deviance_terms_loo. okb. okb. cbv zeta.
    apply sound_bind; [assumption|]. intros. apply sound_lift.
  Qed.

  Lemma s_disp_loo : sound 2 (k_dispersion_loo g inv' ft) (dispersion_loo g inv ft).
  Proof.
    pose proof s_dev_terms. pose proof s_pear. pose proof s_leverage. pose proof s_deviance.
    unfold k_dispersion_loo, dispersion_loo. cbv zeta. destruct (free_dispersion g).
    - okb. apply sound_bind; [assumption|]. intros. okb. okb. apply sound_lift.
    - apply sound_lift.
  Qed.

  Lemma s_infl : sound 2 (k_infl_coef g inv' ft) (infl_coef g inv ft).
  Proof.
    pose proof s_leverage. pose proof s_fisher_inv.
    apply sound_bind; [assumption|]. intros. cbv zeta.
    apply sound_bind; [lev|]. intros. apply sound_lift.
  Qed.

  Lemma s_null_like : sound 1 (k_null_like g solveh sfuel ft) (null_like g solveh sfuel ft).
  Proof. apply sound_bind; [apply s_null|]. intros [l p] _. apply sound_lift. Qed.

  Lemma s_lr : sound 1 (k_lr_test g solveh sfuel ft) (lr_test g solveh sfuel ft).
  Proof. apply sound_bind; [apply s_null_like|]. intros. apply sound_lift. Qed.

  Lemma s_resid_dev : sound 1 (k_resid_dev g ft) (Ok (resid_dev g ft)).
  Proof. pose proof s_dev_terms. unfold k_resid_dev. cbv zeta. okb. apply sound_lift. Qed.

  Lemma s_wald_z : sound 3 (k_wald_z g inv' ft) (wald_z g inv ft).
  Proof. apply sound_bind; [apply s_covariance|]. intros. apply sound_lift. Qed.

  Lemma exact_loop_spec : forall ks,
    exact_loop g solveh sfuel ds ft (deviance g ft) (dispersion g ft) ks =
    pvalue_exact_from g solveh sfuel ds ft ks.
  Proof. induction ks as [|i ks IH]; [reflexivity|]. cbn. rewrite IH. reflexivity. Qed.

  Lemma s_call : forall m,
    sound 3 (call g solveh inv' sfuel ds ft m) (fresh g solveh inv sfuel ds ft m).
  Proof.
    pose proof s_dev_terms. pose proof s_deviance. pose proof s_dispersion. pose proof s_pear.
    pose proof s_covariance. pose proof s_hat. pose proof s_leverage. pose proof s_null.
    pose proof s_terms_loo. pose proof s_disp_loo. pose proof s_infl. pose proof s_null_like.
    pose proof s_lr. pose proof s_resid_dev. pose proof s_wald_z.
    assert (T : forall A (t : A -> value F) (a : act F A) o,
               sound 3 a o ->
               sound 3 (abind a (fun x => lift (Ok (t x)))) (do x <- o; Ok (t x))).
    { intros A t a o S. apply sound_bind; [exact S|]. intros. apply sound_lift. }
    intros m. destruct m; cbn [call fresh]; unfold as_num, as_vec, as_mat, num, vec, matr;
      try (apply T; solve [apply sound_lift | assumption | lev]); try apply sound_lift;
      try apply T.
    - (* aic *) unfold k_aic. cbv zeta. okb. apply sound_lift.
    - (* cooks *) apply sound_bind; [lev|]. intros. okb. okb. apply sound_lift.
    - (* loo_exact *) apply sound_bind; [lev|]. intros. apply sound_lift.
    - (* resid_dev_std *) unfold k_resid_dev_std, resid_dev_std. okb. okb.
      apply sound_bind; [lev|]. intros. apply sound_lift.
    - (* resid_pear_std *) unfold k_resid_pear_std, resid_pear_std. okb. okb.
      apply sound_bind; [lev|]. intros. apply sound_lift.
    - (* resid_student *) unfold k_resid_student, resid_student. cbv zeta.
      apply sound_bind; [lev|]. intros t _. apply sound_bind; [|intros; apply sound_lift].
      destruct (free_dispersion g); [|apply sound_lift].
      apply sound_bind; [lev|]. intros. apply sound_lift.
    - (* score_test *) apply sound_bind; [lev|]. intros [l p] _. cbn.
      unfold score_test_against. intros k Hk Hi. unfold lift, inv_res, grows. cbn.
      destruct (Hinv (fisher g ft p)) as [->|[B ->]]; auto 9.
    - (* score_test_against *)
      unfold score_test_against. intros k Hk Hi. unfold lift, inv_res, grows. cbn.
      destruct (Hinv (fisher g ft p)) as [->|[B ->]]; auto 9.
    - (* wald_test *) apply sound_bind; [lev|]. intros [l p] _. apply sound_lift.
    - (* r_sq *) apply sound_bind; [lev|]. intros. okb. apply sound_lift.
    - (* pvalue_lr *) apply sound_bind; [lev|]. intros. apply sound_lift.
    - (* pvalue_wald *) apply sound_bind; [lev|]. intros. apply sound_lift.
    - (* pvalue_exact *) unfold k_pvalue_exact, pvalue_exact. okb. okb.
      rewrite exact_loop_spec. apply sound_lift.
  Qed.

  Lemma call_facts : forall m k, holds k -> (forall c, k_busy k c = false) ->
    let r := call g solveh inv' sfuel ds ft m k in
    holds (snd r) /\ (forall c, k_busy (snd r) c = false) /\
    k_reentered (snd r) = k_reentered k /\ grows k (snd r) /\
    (fst r = fresh g solveh inv sfuel ds ft m \/ (bad /\ fst r = Err LinalgError)).
  Proof.
    intros m k Hk Hb r.
    destruct (s_call m k Hk) as (H1 & H2 & H3 & _ & H5 & H6).
    { intros c _. apply Hb. }
    fold r in H1, H2, H3, H5, H6. repeat split; auto. intros c. rewrite H2. apply Hb.
  Qed.
End Sound.

Section Programs.
  Context {F : Type} {Ops : FloatOps F}.
  Variable g : Glm F.
  Variable solveh : mat F -> list F -> option (list F).
  Variable inv : mat F -> option (mat F).
  Variable sfuel : nat.
  Variable ds : dists F.
  Variable ft : fit F.

  Let good (k : cache F) : Prop :=
    holds g solveh inv sfuel ft k /\ (forall c, k_busy k c = false) /\ k_reentered k = false.

  Lemma flaky_bad : forall inv', flaky inv inv' ->
    forall a, inv' a = inv a \/ (True /\ inv' a = None).
  Proof. intros inv' H a. destruct (H a); auto. Qed.

  Lemma exact_bad : forall a, inv a = inv a \/ (False /\ inv a = None).
  Proof. auto. Qed.

  Lemma good_empty : good empty_cache.
  Proof. repeat split. intros c v H. discriminate H. Qed.

  Lemma calls_facts : forall prog k, good k -> (forall p, In p prog -> flaky inv (fst p)) ->
    let r := calls g solveh sfuel ds ft prog k in
    good (snd r) /\ grows k (snd r) /\
    Forall2 (fun p o => o = fresh g solveh inv sfuel ds ft (snd p) \/ o = Err LinalgError)
            prog (fst r).
  Proof.
    induction prog as [|[iv m] prog IH]; intros k Hk Hf.
    { cbn. repeat split; auto; apply Hk || (intros c v H; exact H). }
    assert (Hiv : flaky inv iv) by (apply (Hf (iv, m)); left; reflexivity).
    destruct Hk as (K1 & K2 & K3).
    pose proof (call_facts g solveh inv iv sfuel ds ft True (flaky_bad iv Hiv) m k K1 K2) as C.
    cbn [calls]. destruct (call g solveh iv sfuel ds ft m k) as [o k1] eqn:E.
    cbn [fst snd] in C. cbv zeta in C. destruct C as (C1 & C2 & C3 & C4 & C5).
    assert (G1 : good k1) by (repeat split; auto; congruence).
    specialize (IH k1 G1 (fun p Hp => Hf p (or_intror Hp))).
    destruct (calls g solveh sfuel ds ft prog k1) as [os k2] eqn:E2.
    cbn [fst snd] in IH. cbv zeta in IH. destruct IH as (I1 & I2 & I3).
    cbn [fst snd]. split; [exact I1|]. split; [intros c v Hv; auto|].
    constructor; [|exact I3]. cbn. destruct C5 as [C5|[_ C5]]; auto.
  Qed.

  Lemma C49_lemma : forall ms,
    fst (calls g solveh sfuel ds ft (map (fun m => (inv, m)) ms) empty_cache) =
    map (fresh g solveh inv sfuel ds ft) ms.
  Proof.
    enough (G : forall ms k, good k ->
      fst (calls g solveh sfuel ds ft (map (fun m => (inv, m)) ms) k) =
      map (fresh g solveh inv sfuel ds ft) ms) by (intros; apply G, good_empty).
    induction ms as [|m ms IH]; intros k (K1 & K2 & K3); [reflexivity|].
    pose proof (call_facts g solveh inv inv sfuel ds ft False exact_bad m k K1 K2) as C.
    cbn [map calls]. destruct (call g solveh inv sfuel ds ft m k) as [o k1] eqn:E.
    cbn [fst snd] in C. cbv zeta in C. destruct C as (C1 & C2 & C3 & C4 & C5).
    specialize (IH k1). destruct (calls g solveh sfuel ds ft _ k1) as [os k2].
    cbn [fst] in *. f_equal.
    - destruct C5 as [C5|[[] _]]. exact C5.
    - apply IH. repeat split; auto. congruence.
  Qed.

  Lemma C49_retry_lemma : forall prog m, (forall p, In p prog -> flaky inv (fst p)) ->
    let k := snd (calls g solveh sfuel ds ft prog empty_cache) in
    fst (call g solveh inv sfuel ds ft m k) = fresh g solveh inv sfuel ds ft m.
  Proof.
    intros prog m Hf k.
    destruct (calls_facts prog empty_cache good_empty Hf) as ((G1 & G2 & G3) & _ & _).
    fold k in G1, G2, G3.
    destruct (call_facts g solveh inv inv sfuel ds ft False exact_bad m k G1 G2)
      as (_ & _ & _ & _ & [C|[[] _]]). exact C.
  Qed.

  Lemma C49_fail_lemma : forall prog, (forall p, In p prog -> flaky inv (fst p)) ->
    Forall2 (fun p o => o = fresh g solveh inv sfuel ds ft (snd p) \/ o = Err LinalgError)
            prog (fst (calls g solveh sfuel ds ft prog empty_cache)).
  Proof. intros prog Hf. apply (calls_facts prog empty_cache good_empty Hf). Qed.
  Lemma full_after : forall c (f : act F (cell_ty F c)) k v,
    fst (get_or_try_init c f k) = Ok v -> k_val (snd (get_or_try_init c f k)) c = Some v.
  Proof.
    intros c f k v. unfold get_or_try_init. destruct (k_val k c) as [w|] eqn:E.
    - cbn. intros [= <-]. exact E.
    - destruct (f _) as [o k2]. destruct o as [w| | |]; try (cbn; discriminate).
      destruct (k_val (set_busy c (k_busy k c) k2) c) eqn:E2; cbn [fst snd]; [discriminate|].
      intros [= <-]. apply set_val_same.
  Qed.

  Definition growing {A} (a : act F A) : Prop := forall k, grows k (snd (a k)).

  (** Once [a] has succeeded, [b] succeeds with the same value at any later time. *)
  Definition later {A} (a b : act F A) : Prop :=
    growing a /\ growing b /\
    forall k v, fst (a k) = Ok v -> forall k', grows (snd (a k)) k' -> fst (b k') = Ok v.

  Lemma growing_cell : forall c (f : act F (cell_ty F c)),
    growing f -> growing (get_or_try_init c f).
  Proof.
    intros c f G k c0 v0 H0. unfold get_or_try_init. destruct (k_val k c) as [w|] eqn:E; [exact H0|].
    match goal with |- context [f ?q] => set (k1 := q) end.
    assert (H1 : k_val k1 c0 = Some v0) by (unfold k1; destruct (k_busy k c); exact H0).
    specialize (G k1 c0 v0 H1). destruct (f k1) as [o k2]. cbn [snd] in G.
    destruct o as [w| | |]; try exact G.
    destruct (k_val (set_busy c (k_busy k c) k2) c) eqn:E2; cbn [snd]; [exact G|].
    rewrite set_val_other; [exact G|]. intros ->. congruence.
  Qed.

  Lemma later_cell : forall c (f f' : act F (cell_ty F c)), growing f -> growing f' ->
    later (get_or_try_init c f) (get_or_try_init c f').
  Proof.
    intros c f f' G G'. split; [apply growing_cell, G|]. split; [apply growing_cell, G'|].
    intros k v H k' Hk'. unfold get_or_try_init at 1.
    rewrite (Hk' c v (full_after c f k v H)). reflexivity.
  Qed.

  Lemma later_lift : forall A (o : outcome F A), later (lift o) (lift o).
  Proof.
    intros A o. split; [intros k c v H; exact H|]. split; [intros k c v H; exact H|].
    intros k v H k' _. exact H.
  Qed.

  Lemma growing_lift : forall A (o : outcome F A), growing (lift o).
  Proof. intros A o k c v H. exact H. Qed.

  Lemma growing_bind : forall A B (a : act F A) (f : A -> act F B),
    growing a -> (forall x, growing (f x)) -> growing (abind a f).
  Proof.
    intros A B a f Ga Gf k c v H. unfold abind. specialize (Ga k c v H).
    destruct (a k) as [[x| | |] k1]; cbn in *; auto. apply Gf. exact Ga.
  Qed.

  Lemma later_bind : forall A B (a a' : act F A) (f f' : A -> act F B),
    later a a' -> (forall x, later (f x) (f' x)) -> later (abind a f) (abind a' f').
  Proof.
    intros A B a a' f f' (Ga & Ga' & La) Lf.
    split; [apply growing_bind; [exact Ga|apply Lf]|].
    split; [apply growing_bind; [exact Ga'|apply Lf]|].
    intros k v. unfold abind.
    specialize (La k). pose proof (Ga' : growing a') as G'.
    destruct (a k) as [[x| | |] k1]; cbn [fst snd] in *; try discriminate.
    intros H k' Hk'. destruct (Lf x) as (Gf & Gf' & Lx).
    assert (E : fst (a' k') = Ok x).
    { apply (La x eq_refl). intros c w Hw. apply Hk', Gf, Hw. }
    specialize (G' k'). destruct (a' k') as [o k1']. cbn [fst snd] in *. subst o.
    apply (Lx k1 v H). intros c w Hw. apply G', Hk', Hw.
  Qed.

  Ltac grow := repeat first
    [ apply growing_lift
    | match goal with |- growing (get_or_try_init ?c _) => apply (growing_cell c) end | apply growing_bind; [|intros ?]
    | match goal with |- context [if ?b then _ else _] => destruct b end
    | progress unfold k_deviance_terms, k_deviance, k_dispersion, k_resid_pear, k_fisher_inv,
        k_fisher_std_inv, k_covariance, k_hat, k_null_model; cbv zeta ].

  Ltac late := repeat first
    [ apply later_lift
    | match goal with |- later (get_or_try_init ?c _) _ => apply (later_cell c); grow end | apply later_bind; [|intros ?]
    | match goal with |- context [if ?b then _ else _] => destruct b end
    | progress unfold k_deviance_terms, k_deviance, k_dispersion, k_resid_pear, k_fisher_inv,
        k_fisher_std_inv, k_covariance, k_hat, k_null_model, k_leverage, k_aic, k_cooks,
        k_deviance_terms_loo, k_dispersion_loo, k_infl_coef, k_loo_exact, k_null_like, k_lr_test,
        k_resid_dev, k_resid_dev_std, k_resid_pear_std, k_resid_student, k_wald_test, k_wald_z,
        k_r_sq, k_pvalue_lr_test, k_pvalue_wald, k_pvalue_exact; cbv zeta ].

  Lemma call_later : forall iv iv' m, kept m ->
    later (call g solveh iv sfuel ds ft m) (call g solveh iv' sfuel ds ft m).
  Proof.
    intros iv iv' m Hm. destruct m; cbn [kept] in Hm; try contradiction Hm; cbn [call];
      unfold as_num, as_vec, as_mat; late.
  Qed.

  Lemma call_growing : forall iv m, growing (call g solveh iv sfuel ds ft m).
  Proof.
    intros iv m. destruct m; try (eapply (call_later iv iv); exact I); cbn [call];
      unfold as_num, k_score_test; grow.
  Qed.

  Lemma calls_growing : forall prog k, grows k (snd (calls g solveh sfuel ds ft prog k)).
  Proof.
    induction prog as [|[iv m] prog IH]; intros k c v H; [exact H|].
    cbn [calls]. pose proof (call_growing iv m k c v H) as H1.
    destruct (call g solveh iv sfuel ds ft m k) as [o k1]. cbn [snd] in H1.
    specialize (IH k1 c v H1). destruct (calls g solveh sfuel ds ft prog k1). exact IH.
  Qed.

  Lemma calls_app_snd : forall p1 p2 k,
    snd (calls g solveh sfuel ds ft (p1 ++ p2) k) =
    snd (calls g solveh sfuel ds ft p2 (snd (calls g solveh sfuel ds ft p1 k))).
  Proof.
    induction p1 as [|[iv m] p1 IH]; intros p2 k; [reflexivity|].
    cbn [app calls]. destruct (call g solveh iv sfuel ds ft m k) as [o k1]. specialize (IH p2 k1).
    destruct (calls _ _ _ _ _ (p1 ++ p2) k1). destruct (calls _ _ _ _ _ p1 k1). exact IH.
  Qed.

  Lemma C49_kept_lemma : forall before after iv iv' m v, kept m ->
    fst (call g solveh iv sfuel ds ft m
           (snd (calls g solveh sfuel ds ft before empty_cache))) = Ok v ->
    fst (call g solveh iv' sfuel ds ft m
           (snd (calls g solveh sfuel ds ft (before ++ (iv, m) :: after) empty_cache))) = Ok v.
  Proof.
    intros before after iv iv' m v Hm Hv. rewrite calls_app_snd.
    set (k0 := snd (calls g solveh sfuel ds ft before empty_cache)) in *.
    apply (proj2 (proj2 (call_later iv iv' m Hm)) k0 v Hv).
    cbn [calls]. destruct (call g solveh iv sfuel ds ft m k0) as [o k1]. cbn [snd].
    pose proof (calls_growing after k1) as G.
    destruct (calls g solveh sfuel ds ft after k1) as [r2 k2]. exact G.
  Qed.
  (** Running [a] while only cells of level [n] and above are busy enters none of them. *)
  Definition calm {A} (n : nat) (a : act F A) : Prop :=
    forall k, idle n k ->
      (forall c, k_busy (snd (a k)) c = k_busy k c) /\ k_reentered (snd (a k)) = k_reentered k.

  Lemma calm_lift : forall A n (o : outcome F A), calm n (lift o).
  Proof. intros A n o k Hi. auto. Qed.

  Lemma calm_weaken : forall A n n' (a : act F A), n <= n' -> calm n a -> calm n' a.
  Proof. intros A n n' a L C k Hi. apply C. intros c Hc. apply Hi. lia. Qed.

  Lemma calm_bind : forall A B n (a : act F A) (f : A -> act F B),
    calm n a -> (forall x, calm n (f x)) -> calm n (abind a f).
  Proof.
    intros A B n a f Ca Cf k Hi. unfold abind. destruct (Ca k Hi) as [H1 H2].
    destruct (a k) as [[x| | |] k1]; cbn [fst snd] in *; auto.
    destruct (Cf x k1) as [G1 G2].
    { intros c Hc. rewrite H1. auto. }
    split; [intros c; rewrite G1; auto|congruence].
  Qed.

  Lemma calm_cell : forall c (f : act F (cell_ty F c)) n, level c < n ->
    calm (level c) f -> calm n (get_or_try_init c f).
  Proof.
    intros c f n L Cf k Hi. unfold get_or_try_init.
    destruct (k_val k c) as [v|] eqn:Ev; [auto|].
    rewrite (Hi c) by lia. set (k1 := set_busy c true k).
    destruct (Cf k1) as [H1 H2].
    { intros c' Hc'. cbn. destruct (cell_eq_dec c c') as [->|]; [lia|]. apply Hi. lia. }
    destruct (f k1) as [o k2]. cbn [fst snd] in *.
    assert (Q : (forall c', k_busy (set_busy c false k2) c' = k_busy k c') /\
                k_reentered (set_busy c false k2) = k_reentered k).
    { split; [|exact H2]. intros c'. cbn.
      destruct (cell_eq_dec c c') as [<-|N]; [symmetry; apply Hi; lia|].
      rewrite H1. cbn. destruct (cell_eq_dec c c'); [contradiction|reflexivity]. }
    destruct o as [v|e| |]; try exact Q. destruct (k_val (set_busy c false k2) c); exact Q.
  Qed.

  Ltac calmly := repeat first
    [ apply calm_lift
    | match goal with |- calm _ (get_or_try_init ?c _) => apply (calm_cell c); [cbn; lia|cbn [level]] end
    | apply calm_bind; [|intros ?]
    | match goal with |- context [if ?b then _ else _] => destruct b end
    | progress unfold k_deviance_terms, k_deviance, k_dispersion, k_resid_pear, k_fisher_inv,
        k_fisher_std_inv, k_covariance, k_hat, k_null_model, k_leverage, k_aic, k_cooks,
        k_deviance_terms_loo, k_dispersion_loo, k_infl_coef, k_loo_exact, k_null_like, k_lr_test,
        k_resid_dev, k_resid_dev_std, k_resid_pear_std, k_resid_student, k_wald_test, k_wald_z,
        k_score_test, k_r_sq, k_pvalue_lr_test, k_pvalue_wald, k_pvalue_exact; cbv zeta ].

  Lemma call_calm : forall iv m, calm 3 (call g solveh iv sfuel ds ft m).
  Proof. intros iv m. destruct m; cbn [call]; unfold as_num, as_vec, as_mat; calmly. Qed.

  Lemma C49_reentry_lemma : forall prog,
    k_reentered (snd (calls g solveh sfuel ds ft prog empty_cache)) = false.
  Proof.
    enough (G : forall prog k, (forall c, k_busy k c = false) -> k_reentered k = false ->
              k_reentered (snd (calls g solveh sfuel ds ft prog k)) = false)
      by (intros; apply G; auto).
    induction prog as [|[iv m] prog IH]; intros k Hb Hr; [exact Hr|].
    cbn [calls]. destruct (call_calm iv m k) as [H1 H2]; [intros c _; apply Hb|].
    destruct (call g solveh iv sfuel ds ft m k) as [o k1]. cbn [snd] in *.
    specialize (IH k1). destruct (calls g solveh sfuel ds ft prog k1) as [os k2]. cbn [snd] in *.
    apply IH; [intros c; rewrite H1; apply Hb|congruence].
  Qed.
End Programs.

(** What [C49_no_reentry] excludes: a cell whose initializer asks for the same cell. *)
Lemma reentry_lemma : forall (F : Type) c (v : cell_ty F c) k, k_val k c = None ->
  fst (get_or_try_init c (get_or_try_init c (lift (Ok v))) k) = Panic /\
  k_reentered (snd (get_or_try_init c (get_or_try_init c (lift (Ok v))) k)) = true.
Proof.
  intros F c v k H. unfold get_or_try_init, lift, set_busy, set_val, mark_reentry. rewrite H.
  destruct c; cbn; rewrite ?H; destruct (k_busy k _); cbn; rewrite ?H; cbn; split; reflexivity.
Qed.
