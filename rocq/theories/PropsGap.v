(** Properties of how far from the optimum a fit is: C68.  Vocabulary: SpecFit.v ([rllv],
    [solver_exact], [no_improvement]), SpecData.v and SpecGap.v ([shrunk], [leftv], [gapv],
    [sqdist]). *)
From Coq Require Import List Bool Arith Reals Lra.
From Verif Require Import Num Arr Families Data Reg Irls FitM Model RInst SpecIrls Wit LoopReal WitReal SpecGlm
  Lin SpecData SpecFit RegFacts GlmWit WitFit MiscWit SpecGap OptGap GapWit.
Import ListNotations.
Local Open Scope R_scope.

(** *** C68: no coefficients reach a regularized log-likelihood that exceeds that of the current
    guess by more than [gapv], which is computed from the guess, its shrunken copy and the next
    proposal and which is zero when the three agree. *)
Theorem C68_certificate :
  forall (e : MachEps) f d o solveh st ng c,
    fam_ok f -> is_canonical f = true -> wf d -> weights_nonneg d -> solver_exact solveh ->
    state_ok o d st -> proposed (glm_of f) solveh d st = Some ng ->
    in_dom f d (i_guess st) -> in_dom f d c ->
    rllv f o d c <= rllv f o d (i_guess st) +
      gapv f o d (rho_of (updated_reg st)) (i_guess st) ng (shrunk (updated_reg st) (i_guess st)) c.
Proof. exact (fun e f d o solveh st ng c Hf Hc Hw => @certificate e f Hf Hc d o Hw solveh st ng c). Qed.
Print Assumptions C68_certificate.
Example C68_certificate_applies :
  fam_ok FLinear /\ is_canonical FLinear = true /\ wf (dW yW) /\ weights_nonneg (dW yW) /\
  solver_exact (@cramer R _) /\ state_ok (oW 1 1) (dW yW) stW /\ in_dom FLinear (dW yW) (i_guess stW) /\
  (exists ng, proposed (glm_of FLinear) cramer (dW yW) stW = Some ng).
Proof.
  refine (conj I (conj eq_refl (conj (dW_wf _ yW_len) (conj _ (conj cramer_exact (conj stW_ok (conj _ stW_proposed))))))).
  - intros i Hi. unfold frv, vwv. cbn. lra.
  - intros i Hi. exact I.
Qed.

(** A returned fit: the guess [b] and the proposal [ng] at which the iteration stopped are close
    (or the search along the step found no improvement), the guess and its shrunken copy are close,
    and the reported coefficients are within the bound of every alternative. *)
Theorem C68_returned_near_optimal :
  forall (e : MachEps) f d o solveh sfuel ft,
    fam_ok f -> is_canonical f = true -> wf d -> weights_nonneg d -> solver_exact solveh ->
    regression (glm_of f) solveh sfuel d o = Ok ft -> o_l1 o <= 0 \/ f_n_iter ft <> 1%nat ->
    exists (r : reg R) b ng,
      let rho := rho_of r in let z := shrunk r b in
      length b = npar d /\ length ng = npar d /\ length z = npar d /\ 0 <= rho /\
      (o_l1 o <= 0 -> rho = 0 /\ z = b) /\
      (0 < o_l1 o -> sqdist (npar d) b z < sqrt (INR (npar d)) * o_tol o) /\
      (sqdist (npar d) ng b <= (INR (npar d) + sumn (npar d) (fun k => vg ng k ^ 2)) * (o_tol o * o_tol o) \/
       no_improvement (glm_of f) d o r b ng) /\
      forall c, length c = npar d -> in_dom f d b -> in_dom f d c ->
        rllv f o d c <= rllv f o d (f_result_std ft) + gapv f o d rho b ng z c.
Proof.
  exact (fun e f d o solveh sfuel ft Hf Hc Hw Hn HS =>
    @C68_returned_lemma e f d o solveh sfuel Hw HS ft Hf Hc Hn).
Qed.
Print Assumptions C68_returned_near_optimal.
(** An L1 fit that stops short of the optimum. *)
Example C68_returned_applies : forall (e : MachEps), exists ft,
  fam_ok FLinear /\ is_canonical FLinear = true /\ wf (dW yW) /\ weights_nonneg (dW yW) /\
  solver_exact (known_solver [3; 3 / 2]) /\
  regression (glm_of FLinear) (known_solver [3; 3 / 2]) 0 (dW yW) (oG 1 0 bA) = Ok ft /\
  f_n_iter ft <> 1%nat /\ 0 < o_l1 (oG 1 0 bA) /\ in_dom FLinear (dW yW) (f_result_std ft) /\
  in_dom FLinear (dW yW) [3; 2] /\
  rllv FLinear (oG 1 0 bA) (dW yW) [3; 2] = rllv FLinear (oG 1 0 bA) (dW yW) (f_result_std ft) + 1 / 4.
Proof. exact @gap_example. Qed.
