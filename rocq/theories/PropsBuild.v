(** Properties of the model builder and of the fit options: C32-C36.  The vocabulary
    ([repeated], [misshapen], [weights_fit], [first_none], [last_*]) is in SpecBuild.v. *)
From Coq Require Import List Bool Arith ZArith Reals Floats.SpecFloat Permutation.
From Flocq Require Import Core BinarySingleNaN.
From Coq Require Import List.
From Verif Require Import Num Arr Families Data Reg Irls Model F64 RInst SpecGlm SpecBuild BuildGen BuildProps Wit.
Import ListNotations.

(** *** C32: which inputs are rejected, and with which error.  [S] is the float type of the
    responses, [F] the working type; no property of their arithmetic is used. *)
Theorem C32_build_error :
  forall S (SOps : FloatOps S) F (Ops : FloatOps F) (cast : S -> F) fam ys x ss,
    ((exists k, build_with cast fam ys x ss = Err (BuildError k)) <-> repeated ss) /\
    (forall k, build_with cast fam ys x ss = Err (BuildError k) ->
       2 <= match k with
            | DupOffset => length (given_offsets ss)
            | DupFreq => length (given_freqs ss)
            | DupVar => length (given_variances ss)
            end).
Proof.
  exact (fun S SOps F Ops cast fam ys x ss =>
           conj (build_dup cast fam ys x ss) (build_dup_kind cast fam ys x ss)).
Qed.
Print Assumptions C32_build_error.

Theorem C32_bad_input :
  forall S (SOps : FloatOps S) F (Ops : FloatOps F) (cast : S -> F) fam ys x ss,
    ~ repeated ss ->
    ((exists k, build_with cast fam ys x ss = Err (BadInput k)) <-> misshapen ys x ss).
Proof. exact (fun S SOps F Ops cast fam ys x ss H => proj1 (misshapen_dec cast fam ys x ss H)). Qed.
Print Assumptions C32_bad_input.

Theorem C32_invalid_y :
  forall S (SOps : FloatOps S) F (Ops : FloatOps F) (cast : S -> F) fam ys x ss,
    ~ repeated ss -> ~ misshapen ys x ss -> forall i,
    build_with cast fam ys x ss = Err (InvalidY i) <-> first_none (into_float cast fam) ys i.
Proof. exact @build_invalid. Qed.
Print Assumptions C32_invalid_y.

(** Everything else is accepted, up to the abort of C36, and the result holds what was asked for. *)
Theorem C32_accepts :
  forall S (SOps : FloatOps S) F (Ops : FloatOps F) (cast : S -> F) fam ys x ss,
    ~ repeated ss -> ~ misshapen ys x ss ->
    (forall y, In y ys -> into_float cast fam y <> None) ->
    (exists y, Forall2 (fun a b => into_float cast fam a = Some b) ys y /\
       forall d, build_with cast fam ys x ss = Ok d ->
         d_y d = y /\
         (forall off, d_offset d = Some off <-> In (SetOffset off) ss) /\
         (forall w, d_weights d = Some w <-> In (SetVar w) ss) /\
         (forall f, d_freqs d = Some f <-> exists k, In (SetFreq k) ss /\ f = map fnat k) /\
         (d_std d = None <-> In NoStandardize ss) /\
         (d_intercept d = false <-> In NoConstant ss) /\
         nrows (d_x d) = nrows x /\
         mcols (d_x d) = (if d_intercept d then 1 else 0) + mcols x) /\
    (In NoStandardize ss -> exists d, build_with cast fam ys x ss = Ok d) /\
    (~ In NoStandardize ss -> weights_fit ys ss ->
       forall d0 : dataset F, length (d_y d0) = length ys ->
         (forall w, d_weights d0 = Some w <-> In (SetVar w) ss) ->
         (forall f, d_freqs d0 = Some f <-> exists k, In (SetFreq k) ss /\ f = map fnat k) ->
         if (2 <=? length ys) && negb (fltb fone (n_eff d0))
         then build_with cast fam ys x ss = Panic
         else exists d, build_with cast fam ys x ss = Ok d).
Proof. exact @C32_accepts_lemma. Qed.
Print Assumptions C32_accepts.

(** *** C33: order of calls. *)
Theorem C33_builder_order :
  forall S (SOps : FloatOps S) F (Ops : FloatOps F) (cast : S -> F) fam ys x ss ss',
    Permutation ss ss' ->
    (repeated ss /\ exists k k', build_with cast fam ys x ss = Err (BuildError k) /\
                                 build_with cast fam ys x ss' = Err (BuildError k')) \/
    (~ repeated ss /\ build_with cast fam ys x ss = build_with cast fam ys x ss').
Proof. exact @build_perm. Qed.
Print Assumptions C33_builder_order.

Theorem C33_fit_options :
  forall F (Ops : FloatOps F) (g : Glm F) solveh sfuel d o os,
    fit_with_options g solveh sfuel d o os =
      regression g solveh sfuel d
        (FitOptions (last_max_iter os (o_max_iter o)) (last_tol os (o_tol o))
                    (last_l1 os (o_l1 o)) (last_l2 os (o_l2 o)) (o_init o)) /\
    fit_with g solveh sfuel d os =
      regression g solveh sfuel d
        (FitOptions (last_max_iter os 128) (last_tol os feps) (last_l1 os fzero) (last_l2 os fzero)
                    None).
Proof. exact @C33_options_lemma. Qed.
Print Assumptions C33_fit_options.

Theorem C33_fit_options_order :
  forall F (Ops : FloatOps F) (g : Glm F) solveh sfuel d o os a b os',
    match a, b with
    | SetMaxIter _, SetMaxIter _ | SetTol _, SetTol _ | SetL1 _, SetL1 _ | SetL2 _, SetL2 _ => False
    | _, _ => True
    end ->
    fit_with_options g solveh sfuel d o (os ++ a :: b :: os') =
    fit_with_options g solveh sfuel d o (os ++ b :: a :: os').
Proof. exact @C33_swap_lemma. Qed.
Print Assumptions C33_fit_options_order.

(** *** C34: validation of responses. *)
Theorem C34_exact :
  forall (e : MachEps) f,
    ((match f with FPoisson | FBinomial _ => false | _ => true end) = true -> forall x : R,
       into_float (fun x => x) f (YFloat x) = Some x /\ y_dom f x \/
       into_float (fun x => x) f (YFloat x) = None /\ ~ y_dom f x) /\
    (forall b v, into_float (S := R) (fun x => x) f (YBool b) = Some v ->
       y_dom f v /\ v = if b then 1%R else 0%R) /\
    (forall k v, into_float (S := R) (fun x => x) f (YInt k) = Some v -> v = INR k /\
       (match f with FBinomial N => k <= N | _ => True end -> y_dom f v)).
Proof. exact @C34_exact_lemma. Qed.
Print Assumptions C34_exact.

(** In binary32 and binary64 the unit-interval families reject NaN, infinities and everything
    outside [0, 1]. *)
Theorem C34_unit_interval_ieee :
  forall prec emax, (prec, emax) = (53%Z, 1024%Z) \/ (prec, emax) = (24%Z, 128%Z) ->
  forall lm nn f x, (f = FLogistic \/ f = FCloglog) -> valid_binary prec emax x = true ->
    let ops := ieee_ops prec emax lm nn in
    (@into_float _ ops _ ops (fun x => x) f (YFloat x) = Some x /\
       is_finite_SF x = true /\ (0 <= SF2R radix2 x <= 1)%R) \/
    (@into_float _ ops _ ops (fun x => x) f (YFloat x) = None /\
       ~ (is_finite_SF x = true /\ (0 <= SF2R radix2 x <= 1)%R)).
Proof. exact C34_unit_lemma. Qed.
Print Assumptions C34_unit_interval_ieee.

(** The families with positive responses accept exactly NaN, +infinity and the positive numbers. *)
Theorem C34_positive_ieee :
  forall prec emax lm nn f x,
    (match f with FExponential | FExponentialLog | FGamma | FGammaLog
                | FInvGaussian | FInvGaussianLog => True | _ => False end) ->
    let ops := ieee_ops prec emax lm nn in
    @into_float _ ops _ ops (fun x => x) f (YFloat x) =
    match x with
    | S754_nan | S754_infinity false | S754_finite false _ _ => Some x
    | _ => None
    end.
Proof. exact C34_positive. Qed.
Print Assumptions C34_positive_ieee.

(** So the property is false for them: NaN responses are accepted (for the linear family too), a
    positive f64 response that underflows in f32 becomes the response 0 of a Gamma model, and a
    binomial count may exceed the number of trials. *)
Theorem C34_domain_refuted :
  (forall f, (match f with FLinear | FExponential | FExponentialLog | FGamma | FGammaLog
                | FInvGaussian | FInvGaussianLog => True | _ => False end) ->
     @build_with _ o64 _ o64 (fun x => x) f [YFloat S754_nan; YFloat (nf 1)] (Mat 0 [[]; []]) [] =
     Ok (Dataset [S754_nan; nf 1] (Mat 1 [[nf 1]; [nf 1]]) None None None true (Some (Std [] [])))) /\
  (exists d, @build_with _ o64 _ o32 (sf_cast 24 128) FGamma
               [YFloat (S754_finite false 4503599627370496 (-252)); YFloat (nf 1)]
               (Mat 0 [[]; []]) [] = Ok d /\ nth 0 (d_y d) S754_nan = S754_zero false) /\
  (exists d, @build_with _ o64 _ o64 (fun x => x) (FBinomial 3) [YInt 5; YInt 1] (Mat 0 [[]; []]) [] = Ok d /\
             d_y d = [nf 5; nf 1]).
Proof. exact C34_witness. Qed.
Print Assumptions C34_domain_refuted.

(** *** C35: weights of the wrong length.  With standardization and at least two rows a length
    other than 1 never yields a model; in the remaining cases it does. *)
Theorem C35_wrong_length :
  forall S (SOps : FloatOps S) F (Ops : FloatOps F) (cast : S -> F) fam ys x ss,
    ~ In NoStandardize ss -> 2 <= length ys ->
    (exists w, In (SetVar w) ss /\ length w <> length ys /\ length w <> 1) \/
    ((exists f, In (SetFreq f) ss /\ length f <> length ys /\ length f <> 1) /\
     (forall w, In (SetVar w) ss -> length w = length ys)) ->
    forall d, build_with cast fam ys x ss <> Ok d.
Proof. exact @wrong_length_panics. Qed.
Print Assumptions C35_wrong_length.

Theorem C35_wrong_length_refuted :
  (exists d, @build_with _ o64 _ o64 (fun x => x) FLinear (map (fun k => YFloat (nf k)) [1; 2; 4])
               (Mat 1 [[nf 0]; [nf 1]; [nf 3]]) [SetFreq [2]] = Ok d /\
             length (d_y d) = 3 /\ @n_obs _ o64 d = nf 2) /\
  (exists d, @build_with _ o64 _ o64 (fun x => x) FLinear (map (fun k => YFloat (nf k)) [1; 2; 4])
               (Mat 1 [[nf 0]; [nf 1]; [nf 3]]) [SetVar [nf 1; nf 7]; NoStandardize] = Ok d /\
             d_weights d = Some [nf 1; nf 7]).
Proof. exact C35_witness. Qed.
Print Assumptions C35_wrong_length_refuted.

(** *** C36: when building aborts.  [eff_size] is [(sum f w)^2 / sum f w^2], and [sum f] without
    variance weights. *)
Theorem C36_aborts_exactly :
  forall (e : MachEps) S (SOps : FloatOps S) (cast : S -> R) fam ys x ss,
    ~ repeated ss -> ~ misshapen ys x ss ->
    (forall y, In y ys -> into_float cast fam y <> None) -> weights_fit ys ss ->
    ~ In NoStandardize ss ->
    forall w f, (forall l, w = Some l <-> In (SetVar l) ss) ->
                (forall l, f = Some l <-> exists k, In (SetFreq k) ss /\ l = map INR k) ->
    (build_with cast fam ys x ss = Panic <->
     2 <= length ys /\ ~ (1 < eff_size (length ys) w f)%R).
Proof. exact @C36_lemma. Qed.
Print Assumptions C36_aborts_exactly.

Theorem C36_never_aborts_refuted :
  @build_with _ o64 _ o64 (fun x => x) FLinear (map (fun k => YFloat (nf k)) [1; 2; 4])
     (Mat 1 [[nf 0]; [nf 1]; [nf 3]]) [SetFreq [1; 0; 0]] = Panic.
Proof. exact C36_witness. Qed.
Print Assumptions C36_never_aborts_refuted.

(** Inputs that meet the hypotheses above. *)
Example C32_C36_example : forall e : MachEps,
  ~ repeated ssR /\ ~ misshapen ysR xR ssR /\
  (forall y, In y ysR -> into_float (fun x => x) FGamma y <> None) /\ weights_fit ysR ssR /\
  ~ In NoStandardize ssR /\
  (1 < eff_size 3 (Some [1; 2; 2]%R) (Some (map INR [1; 1; 0]%nat)))%R /\
  ~ (1 < eff_size 3 None (Some (map INR [1; 0; 0]%nat)))%R /\
  Permutation ssR (rev ssR) /\
  repeated (F := R) [NoConstant; SetFreq [1]; NoStandardize; SetFreq [2]] /\
  misshapen ysR xR [SetOffset [0; 0]%R] /\
  first_none (into_float (S := R) (fun x => x) FGamma) [YFloat 1%R; YFloat (-1)%R; YFloat 0%R] 1.
Proof. exact build_example. Qed.
