(** A linear regression in double precision whose deviance is negative. *)
From Coq Require Import List Bool Arith ZArith Reals Lra Lia.
From Coq Require Import Floats.SpecFloat.
From Coq Require Import List.
From Verif Require Import Num Arr Families Data Reg Irls FitM F64 Wit SpecQuant SpecRound.
Import ListNotations.

(** An integer as a double-precision number. *)
Definition z64 (z : Z) : spec_float := binary_normalize 53 1024 z 0 false.
(** Three responses and an intercept. *)
Definition three (a b c : Z) : dataset spec_float :=
  Dataset [z64 a; z64 b; z64 c] (Mat 1 [[nf 1]; [nf 1]; [nf 1]]) None None None true None.
(** The inverse of a matrix with one entry. *)
Definition inv1 {F} {O : FloatOps F} (A : mat F) : option (mat F) :=
  match mrows A with [[a]] => Some (Mat 1 [[fdiv fone a]]) | _ => None end.
Definition plain : fit_options spec_float := opts64 100 (nf 0) (nf 0) None.

Lemma big_lemma lm nn : let O := f64_ops lm nn in
  exists ft, @regression _ O (@linear_glm _ O) (@cramer _ O) 1600
      (three 134217730 134217731 134217732) plain = Ok ft /\
    f_result ft = [z64 134217731] /\
    f_y_hat ft = [z64 134217731; z64 134217731; z64 134217731] /\
    @resid_resp _ O ft = [z64 (-1); z64 0; z64 1] /\
    @deviance _ O (@linear_glm _ O) ft = z64 (-4) /\
    @dispersion _ O (@linear_glm _ O) ft = z64 (-2) /\
    @resid_dev _ O (@linear_glm _ O) ft = [S754_nan; z64 0; z64 0] /\
    @wald_z _ O (@linear_glm _ O) (@inv1 _ O) ft = Ok [S754_nan].
Proof.
  intros O.
  set (r := @regression _ O (@linear_glm _ O) (@cramer _ O) 1600 (three 134217730 134217731 134217732) plain).
  assert (E : match r with
    | Ok ft => (f_result ft, f_y_hat ft, @resid_resp _ O ft, @deviance _ O (@linear_glm _ O) ft,
                @dispersion _ O (@linear_glm _ O) ft, @resid_dev _ O (@linear_glm _ O) ft,
                @wald_z _ O (@linear_glm _ O) (@inv1 _ O) ft)
    | _ => ([], [], [], z64 0, z64 0, [], Panic) end =
    ([z64 134217731], [z64 134217731; z64 134217731; z64 134217731], [z64 (-1); z64 0; z64 1], z64 (-4), z64 (-2),
     [S754_nan; z64 0; z64 0], Ok [S754_nan])).
  { vm_cast_no_check (eq_refl ([z64 134217731], [z64 134217731; z64 134217731; z64 134217731],
      [z64 (-1); z64 0; z64 1], z64 (-4), z64 (-2), [S754_nan; z64 0; z64 0], @Ok spec_float _ [S754_nan])). }
  destruct r as [ft| | |]; try discriminate E. exists ft. split; [reflexivity|].
  now injection E as E1 E2 E3 E4 E5 E6 E7.
Qed.
Lemma small_lemma lm nn : let O := f64_ops lm nn in
  exists ft, @regression _ O (@linear_glm _ O) (@cramer _ O) 1600 (three 1 2 6) plain = Ok ft /\
    f_y_hat ft = [z64 3; z64 3; z64 3].
Proof.
  intros O.
  set (r := @regression _ O (@linear_glm _ O) (@cramer _ O) 1600 (three 1 2 6) plain).
  assert (E : match r with Ok ft => f_y_hat ft | _ => [] end = [z64 3; z64 3; z64 3]).
  { vm_cast_no_check (eq_refl [z64 3; z64 3; z64 3]). }
  destruct r as [ft| | |]; try discriminate E. exists ft. split; [reflexivity|exact E].
Qed.

Local Open Scope R_scope.
Lemma z64_ordinary z m k : z64 z = S754_finite false m (- Z.of_nat k) -> valid_binary 53 1024 (z64 z) = true ->
  Zpos m = (z * 2 ^ Z.of_nat k)%Z -> (1 <= z <= 2 ^ 400)%Z -> ordinary (z64 z) (IZR z).
Proof.
  intros E Hv H [Hz1 Hz2]. apply IZR_le in Hz1. apply IZR_le in Hz2.
  change (2 ^ 400)%Z with (2 ^ Z.of_nat 400)%Z in Hz2. rewrite <- pow_IZR in Hz2.
  split; [exact Hv|]. split.
  - rewrite E. cbn [sf_value]. f_equal. rewrite H, mult_IZR, powerRZ_neg', <- pow_powerRZ, pow_IZR.
    field. apply IZR_neq. apply Z.pow_nonzero; lia.
  - right. rewrite Rabs_pos_eq by lra. change (powerRZ 2 400) with (2 ^ 400). split; [|exact Hz2].
    apply Rle_trans with 1; [|lra]. change (powerRZ 2 (-400)) with (/ 2 ^ 400).
    rewrite <- Rinv_1. apply Rinv_le_contravar; [lra|]. apply pow_R1_Rle. lra.
Qed.
Ltac ord k := eapply (z64_ordinary _ _ k); [vm_compute; reflexivity|vm_compute; reflexivity|
  vm_compute; reflexivity|split; vm_compute; discriminate].
Lemma small_ordinary :
  Forall2 ordinary [z64 1; z64 2; z64 6] [1; 2; 6] /\ Forall2 ordinary [z64 3; z64 3; z64 3] [3; 3; 3].
Proof.
  assert (ordinary (z64 1) 1) by ord 52%nat. assert (ordinary (z64 2) 2) by ord 51%nat.
  assert (ordinary (z64 6) 6) by ord 50%nat. assert (ordinary (z64 3) 3) by ord 51%nat.
  split; repeat (apply Forall2_cons; [assumption|]); apply Forall2_nil.
Qed.
Lemma big_ordinary :
  Forall2 ordinary [z64 134217730; z64 134217731; z64 134217732] [134217730; 134217731; 134217732] /\
  Forall2 ordinary [z64 134217731; z64 134217731; z64 134217731] [134217731; 134217731; 134217731].
Proof.
  assert (ordinary (z64 134217730) 134217730) by ord 25%nat.
  assert (ordinary (z64 134217731) 134217731) by ord 25%nat.
  assert (ordinary (z64 134217732) 134217732) by ord 25%nat.
  split; repeat (apply Forall2_cons; [assumption|]); apply Forall2_nil.
Qed.
Lemma big_sums :
  let l := combine [134217730; 134217731; 134217732] [134217731; 134217731; 134217731] in
  sum_sq_resid l = 2 /\ INR (length l) <= powerRZ 2 40 /\ roundoff * (8 * sum_sq l + 2 * INR (length l) * 2) <= 97.
Proof.
  cbn [combine length sum_sq_resid sum_sq pow]. unfold roundoff.
  change (powerRZ 2 (-53)) with (/ 2 ^ 53). change (powerRZ 2 40) with (2 ^ 40).
  rewrite !pow_IZR. change (Z.of_nat 53) with 53%Z. change (Z.of_nat 40) with 40%Z.
  change (2 ^ 53)%Z with 9007199254740992%Z. change (2 ^ 40)%Z with 1099511627776%Z.
  cbn [INR]. split; [lra|]. split; [lra|].
  apply Rmult_le_reg_l with 9007199254740992; [lra|]. rewrite <- Rmult_assoc, Rinv_r, Rmult_1_l by lra.
  lra.
Qed.
