(** Fits in double precision whose methods abort (C86). *)
From Coq Require Import List Bool Arith Lia ZArith Floats.SpecFloat.
From Verif Require Import Num Arr Families Data Reg Irls FitM Model Cache F64 Wit LoopReal SpecBuild SpecAbort AbortProps SpecCache.
Import ListNotations.

(** ** What the builder makes is well shaped *)
Section Built.
  Context {S F : Type} {SOps : FloatOps S} {Ops : FloatOps F}.
  Variable cast : S -> F.

  Lemma convert_len fam : forall ys i y, convert_y cast fam i ys = Ok y -> length y = length ys.
  Proof.
    induction ys as [|a ys IH]; intros i y H; cbn [convert_y] in H; [now injection H as <-|].
    destruct (into_float cast fam a); [|discriminate]. destruct (convert_y cast fam _ ys) eqn:E; try discriminate.
    cbn [bind] in H. injection H as <-. cbn. now rewrite (IH _ _ E).
  Qed.
  Lemma setters_len (ss : list (setter F)) n : (forall f, In (SetFreq f) ss -> length f = n) -> (forall w, In (SetVar w) ss -> length w = n) ->
    forall b, match b_freqs b with Some f => length f = n | None => True end ->
      match b_weights b with Some f => length f = n | None => True end ->
      match b_freqs (fold_left apply_setter ss b) with Some f => length f = n | None => True end /\
      match b_weights (fold_left apply_setter ss b) with Some f => length f = n | None => True end.
  Proof.
    induction ss as [|s ss IH]; intros Hf Hw b B1 B2; [auto|]. cbn [fold_left].
    apply IH; [intros; apply Hf; now right|intros; apply Hw; now right| |].
    - destruct s; cbn; auto. rewrite map_length. apply Hf. now left.
    - destruct s; cbn; auto. apply Hw. now left.
  Qed.
  Lemma C86_built_lemma fam ys x ss d : build_with cast fam ys x ss = Ok d ->
    mat_shape (length ys) (mcols x) x -> weights_fit ys ss -> well_shaped d.
  Proof.
    intros HB (X1 & X2 & X3) (Hf & Hw). unfold build_with, build in HB.
    destruct (setters_len ss (length ys) Hf Hw builder_new I I) as (Lf & Lw).
    set (b := fold_left apply_setter ss builder_new) in *.
    destruct (b_error b); [discriminate|]. destruct (negb _); [discriminate|].
    destruct (b_offset b) as [off|] eqn:Eo.
    - destruct (Nat.eqb_spec (length ys) (length off)) as [El|]; [|discriminate]. cbn [negb] in HB.
      destruct (convert_y cast fam 0 ys) as [y| | |] eqn:Ey; try discriminate. cbn [bind] in HB. apply convert_len in Ey.
      destruct (finalize_chk _ _ _) as [d'|] eqn:E; [|discriminate]. injection HB as ->.
      revert E. unfold finalize_chk. cbn [d_std d_intercept d_y d_x d_offset d_weights d_freqs].
      destruct (b_standardize b).
      + destruct (from_dataset_some (Dataset y x (Some off) (b_weights b) (b_freqs b) (b_intercept b) None)) as (_ & B); cbn;
          [unfold nrows; congruence|rewrite Ey; exact Lf|rewrite Ey; exact Lw|].
        destruct (from_dataset_chk _) as [s|]; [|discriminate]. cbn [obind]. destruct (B s eq_refl) as (B1 & B2). cbn in B1, B2.
        intros [= <-]. destruct (b_intercept b) eqn:EI; constructor; cbn; rewrite ?Ey, ?EI; auto; try lia; try discriminate.
        * repeat split; cbn; rewrite ?map_length; auto. apply Forall_map, Forall_map. apply Forall_forall. intros r Hr. cbn.
          rewrite Forall_forall in X3. unfold vdiv, vsub. rewrite !map2_len, X3 by assumption. lia.
        * repeat split; cbn; rewrite ?map_length; auto. apply Forall_map. apply Forall_forall. intros r Hr.
          rewrite Forall_forall in X3. unfold vdiv, vsub. rewrite !map2_len, X3 by assumption. lia.
      + cbn [obind]. intros [= <-]. destruct (b_intercept b) eqn:EI; constructor; cbn; rewrite ?Ey, ?EI; auto; try lia; try discriminate.
        * repeat split; cbn; rewrite ?map_length; auto. apply Forall_map. apply Forall_forall. intros r Hr. cbn.
          rewrite Forall_forall in X3. now rewrite X3.
        * repeat split; auto.
    - cbn [negb] in HB. destruct (convert_y cast fam 0 ys) as [y| | |] eqn:Ey; try discriminate. cbn [bind] in HB. apply convert_len in Ey.
      destruct (finalize_chk _ _ _) as [d'|] eqn:E; [|discriminate]. injection HB as ->.
      revert E. unfold finalize_chk. cbn [d_std d_intercept d_y d_x d_offset d_weights d_freqs].
      destruct (b_standardize b).
      + destruct (from_dataset_some (Dataset y x None (b_weights b) (b_freqs b) (b_intercept b) None)) as (_ & B); cbn;
          [unfold nrows; congruence|rewrite Ey; exact Lf|rewrite Ey; exact Lw|].
        destruct (from_dataset_chk _) as [s|]; [|discriminate]. cbn [obind]. destruct (B s eq_refl) as (B1 & B2). cbn in B1, B2.
        intros [= <-]. destruct (b_intercept b) eqn:EI; constructor; cbn; rewrite ?Ey, ?EI; auto; try lia; try discriminate.
        * repeat split; cbn; rewrite ?map_length; auto. apply Forall_map, Forall_map. apply Forall_forall. intros r Hr. cbn.
          rewrite Forall_forall in X3. unfold vdiv, vsub. rewrite !map2_len, X3 by assumption. lia.
        * repeat split; cbn; rewrite ?map_length; auto. apply Forall_map. apply Forall_forall. intros r Hr.
          rewrite Forall_forall in X3. unfold vdiv, vsub. rewrite !map2_len, X3 by assumption. lia.
      + cbn [obind]. intros [= <-]. destruct (b_intercept b) eqn:EI; constructor; cbn; rewrite ?Ey, ?EI; auto; try lia; try discriminate.
        * repeat split; cbn; rewrite ?map_length; auto. apply Forall_map. apply Forall_forall. intros r Hr. cbn.
          rewrite Forall_forall in X3. now rewrite X3.
        * repeat split; auto.
  Qed.
End Built.

(** ** Fits of a line *)
Definition solver0 {F} {Ops : FloatOps F} (A : mat F) (b : list F) : option (list F) :=
  match mrows A with [] => Some [] | _ => cramer A b end.
Definition inv1 {F} {Ops : FloatOps F} (A : mat F) : option (mat F) :=
  match mrows A with [[a]] => Some (Mat (mcols A) [[frecip a]]) | _ => None end.
Definition ds1 : dists spec_float := Dists _ (fun _ x => x) (fun x => x) (fun x => x) (fun _ x => x) (fun _ x => x).

Lemma solver0_len {F} {Ops : FloatOps F} : solver_len (@solver0 F Ops).
Proof.
  intros A b x. unfold solver0, cramer, nrows.
  destruct (mrows A) as [|[|a [|a2 [|]]] [|[|b1 [|b2 [|]]] [|]]]; intros H; try discriminate; try (now injection H as <-);
    destruct b as [|u [|v [|]]]; try discriminate; destruct (feqb _ _); try discriminate; now injection H as <-.
Qed.
Lemma inv1_cols {F} {Ops : FloatOps F} : inv_cols (@inv1 F Ops).
Proof. intros a b. unfold inv1. destruct (mrows a) as [|[|x [|]] [|]]; try discriminate. now intros [= <-]. Qed.

(** The result of building, fitting with the given options, and calling a method. *)
Definition line_fit (x : mat spec_float) ss (ys : list spec_float) o : outcome spec_float (fit spec_float) :=
  do d <- @build_with _ o64 _ o64 (fun x => x) FLinear (map YFloat ys) x ss;
  @regression _ o64 (@glm_of _ o64 FLinear) (@solver0 _ o64) 100 d o.
Definition line_call x ss ys o m : outcome spec_float (value spec_float) :=
  do ft <- line_fit x ss ys o;
  @fresh _ o64 (@glm_of _ o64 FLinear) (@solver0 _ o64) (@inv1 _ o64) 100 ds1 ft m.
Definition fits {A} (o : outcome spec_float A) : Prop := match o with Ok _ => True | _ => False end.
Definition x12 : mat spec_float := Mat 1 [[nf 1]; [nf 2]].
Definition x124 : mat spec_float := Mat 1 [[nf 1]; [nf 2]; [nf 4]].
Definition tenth k : spec_float := @fdiv _ o64 (nf k) (nf 10).
Definition plain l2 := opts64 9 (nf 0) (nf l2) None.
Definition loose := FitOptions 1 (tenth 5) (nf 0) (nf 0) None.
Definition ss_off : list (setter spec_float) := [SetOffset [tenth 1; tenth 7; tenth 3]; SetFreq [1; 2; 5]].

Lemma C86_witness :
  (fits (line_fit x12 [NoConstant] [nf 1; nf 3] (plain 0)) /\ line_call x12 [NoConstant] [nf 1; nf 3] (plain 0) Mloo_exact = Panic) /\
  (fits (line_fit x12 [NoConstant] [nf 1; nf 3] (plain 1)) /\ line_call x12 [NoConstant] [nf 1; nf 3] (plain 1) Mpvalue_exact = Panic) /\
  (fits (line_fit (Mat 0 [[]; []]) [NoConstant] [nf 1; nf 3] (plain 0)) /\
   line_call (Mat 0 [[]; []]) [NoConstant] [nf 1; nf 3] (plain 0) Mlr_test = Panic) /\
  (fits (line_fit x124 ss_off [tenth 11; tenth 3; tenth 4] loose) /\ line_call x124 ss_off [tenth 11; tenth 3; tenth 4] loose Mlr_test = Panic).
Proof.
  split; [|split; [|split]]; (split; [vm_compute; exact I|vm_compute; reflexivity]).
Qed.

Definition d12 : dataset spec_float :=
  match @build_with _ o64 _ o64 (fun x => x) FLinear (map YFloat [nf 1; nf 3]) x12 [NoConstant] with
  | Ok d => d
  | _ => Dataset [] (Mat 0 []) None None None false None
  end.
Lemma d12_built : @build_with _ o64 _ o64 (fun x => x) FLinear (map YFloat [nf 1; nf 3]) x12 [NoConstant] = Ok d12.
Proof. vm_compute. reflexivity. Qed.
Lemma fit_shapes :
  @build_with _ o64 _ o64 (fun x => x) FLinear (map YFloat [nf 1; nf 3]) x12 [NoConstant] = Ok d12 /\
  mat_shape 2 1 x12 /\ weights_fit (F := spec_float) [nf 1; nf 3] [NoConstant] /\ solver_len (@solver0 _ o64) /\
  fits (@regression _ o64 (@glm_of _ o64 FLinear) (@solver0 _ o64) 100 d12 (plain 0)) /\
  @regression _ o64 (@glm_of _ o64 FLinear) (@solver0 _ o64) 100 d12 (opts64 9 (nf 0) (nf 0) (Some [nf 1; nf 1])) = Panic.
Proof.
  split; [exact d12_built|]. split; [repeat split; repeat constructor|].
  split; [split; intros f [H|[]]; discriminate|]. split; [apply solver0_len|].
  split; [vm_compute; exact I|vm_compute; reflexivity].
Qed.
Lemma fit12_part : match @regression _ o64 (@glm_of _ o64 FLinear) (@solver0 _ o64) 100 d12 (plain 0) with Ok ft => f_n_par ft =? 1 | _ => false end = true.
Proof. vm_compute. reflexivity. Qed.
Lemma methods_meet :
  exists ft, @returned _ o64 (@glm_of _ o64 FLinear) ft /\ solver_len (@solver0 _ o64) /\ inv_cols (@inv1 _ o64) /\
    f_n_par ft = 1 /\ args_fit ft (Mscore [nf 1]) /\
    @aborts _ o64 (@glm_of _ o64 FLinear) (@solver0 _ o64) (@inv1 _ o64) 100 ft (Mpredict (Mat 5 [[nf 1; nf 2; nf 3; nf 4; nf 5]]) None).
Proof.
  destruct fit_shapes as (HB & Hx & Hw & HS & _).
  assert (W : @well_shaped _ d12) by exact (@C86_built_lemma _ _ o64 o64 (fun x => x) FLinear (map YFloat [nf 1; nf 3]) x12 [NoConstant] d12 HB Hx Hw).
  pose proof fit12_part as E. destruct (@regression _ o64 (@glm_of _ o64 FLinear) (@solver0 _ o64) 100 d12 (plain 0)) as [ft| | |] eqn:Ef; try discriminate E.
  apply Nat.eqb_eq in E. exists ft. split; [exists (@solver0 _ o64), 100, d12, (plain 0); auto|].
  split; [exact HS|]. split; [apply inv1_cols|]. split; [exact E|]. split; [cbn; now rewrite E|]. left. rewrite E. cbn [mcols].
  destruct (d_intercept _); lia.
Qed.
