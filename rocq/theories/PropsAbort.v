(** When calls abort (C86), for every arithmetic.  Vocabulary: SpecAbort.v ([well_shaped],
    [returned], [inv_cols], [args_fit], [aborts]), LoopReal.v ([solver_len]), SpecBuild.v
    ([weights_fit]) and SpecCache.v ([fresh], the value of a method). *)
From Coq Require Import List Floats.SpecFloat.
From Verif Require Import Num Arr Families Data Reg Irls FitM Model Cache LoopReal SpecBuild SpecAbort SpecCache F64 Wit AbortProps AbortWit.
Import ListNotations.

(** *** C86: a successfully built model is well shaped. *)
Theorem C86_built :
  forall S F (SOps : FloatOps S) (Ops : FloatOps F) (cast : S -> F) fam ys x ss d,
    build_with cast fam ys x ss = Ok d -> mat_shape (length ys) (mcols x) x -> weights_fit ys ss -> well_shaped d.
Proof. exact @C86_built_lemma. Qed.
Print Assumptions C86_built.

(** Fitting a well-shaped model aborts only when the given starting point has the wrong length. *)
Theorem C86_fit :
  forall F (Ops : FloatOps F) (g : Glm F) solveh sfuel d o,
    well_shaped d -> solver_len solveh ->
    (regression g solveh sfuel d o = Panic <-> exists b, o_init o = Some b /\ length b <> mcols (d_x d)).
Proof. exact @C86_fit_lemma. Qed.
Print Assumptions C86_fit.
(** A line through the origin. *)
Example C86_fit_applies :
  @build_with _ o64 _ o64 (fun x => x) FLinear (map YFloat [nf 1; nf 3]) x12 [NoConstant] = Ok d12 /\
  mat_shape 2 1 x12 /\ weights_fit (F := spec_float) [nf 1; nf 3] [NoConstant] /\ solver_len (@solver0 _ o64) /\
  fits (@regression _ o64 (@glm_of _ o64 FLinear) (@solver0 _ o64) 100 d12 (plain 0)) /\
  @regression _ o64 (@glm_of _ o64 FLinear) (@solver0 _ o64) 100 d12 (opts64 9 (nf 0) (nf 0) (Some [nf 1; nf 1])) = Panic.
Proof. exact fit_shapes. Qed.

(** A method of a fit, called with arguments of the right length, aborts exactly in the cases of
    [aborts]. *)
Theorem C86_methods :
  forall F (Ops : FloatOps F) (g : Glm F) solveh inv sfuel ds ft,
    returned g ft -> solver_len solveh -> inv_cols inv ->
    forall m, args_fit ft m -> (fresh g solveh inv sfuel ds ft m = Panic <-> aborts g solveh inv sfuel ft m).
Proof. exact @C86_methods_lemma. Qed.
Print Assumptions C86_methods.
Example C86_methods_applies :
  exists ft, @returned _ o64 (@glm_of _ o64 FLinear) ft /\ solver_len (@solver0 _ o64) /\ inv_cols (@inv1 _ o64) /\
    f_n_par ft = 1 /\ args_fit ft (Mscore [nf 1]) /\
    @aborts _ o64 (@glm_of _ o64 FLinear) (@solver0 _ o64) (@inv1 _ o64) 100 ft (Mpredict (Mat 5 [[nf 1; nf 2; nf 3; nf 4; nf 5]]) None).
Proof. exact methods_meet. Qed.

(** Finding: models that are built and fitted without error abort in a statistic, in double
    precision: leaving out one of two observations of a standardized model; the exact p-value of the
    only coefficient of a penalized model; the likelihood-ratio test of a model without
    coefficients; and the likelihood-ratio test of a model with offsets whose null model needs more
    iterations than the fit was allowed, because it is fitted at the tolerance of the arithmetic. *)
Theorem C86_never_aborts_refuted :
  (fits (line_fit x12 [NoConstant] [nf 1; nf 3] (plain 0)) /\ line_call x12 [NoConstant] [nf 1; nf 3] (plain 0) Mloo_exact = Panic) /\
  (fits (line_fit x12 [NoConstant] [nf 1; nf 3] (plain 1)) /\ line_call x12 [NoConstant] [nf 1; nf 3] (plain 1) Mpvalue_exact = Panic) /\
  (fits (line_fit (Mat 0 [[]; []]) [NoConstant] [nf 1; nf 3] (plain 0)) /\
   line_call (Mat 0 [[]; []]) [NoConstant] [nf 1; nf 3] (plain 0) Mlr_test = Panic) /\
  (fits (line_fit x124 ss_off [tenth 11; tenth 3; tenth 4] loose) /\ line_call x124 ss_off [tenth 11; tenth 3; tenth 4] loose Mlr_test = Panic).
Proof. exact C86_witness. Qed.
Print Assumptions C86_never_aborts_refuted.
