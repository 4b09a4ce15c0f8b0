(** The model builder.  Models /repo/src/model.rs and the [Yval] implementations of
    /repo/src/response/*.rs. *)
From Coq Require Import List Bool Arith.
From Verif Require Import Num Arr Families Data.
Import ListNotations.

(** A response value as the user supplies it: a [bool], a float of the source type [S] (f32 or
    f64, not necessarily the working type) or an unsigned integer: the types with a [Yval]
    implementation in /repo/src/response/*.rs. *)
Inductive yval (S : Type) :=
| YBool (b : bool)
| YFloat (x : S)
| YInt (n : nat).
Arguments YBool {S}.
Arguments YFloat {S}.
Arguments YInt {S}.

(** Calls on the builder between [ModelBuilder::data] and [build], /repo/src/model.rs:127-180. *)
Inductive setter (F : Type) :=
| SetOffset (off : list F)
| SetFreq (freqs : list nat)
| SetVar (w : list F)
| NoConstant
| NoStandardize.
Arguments SetOffset {F}.
Arguments SetFreq {F}.
Arguments SetVar {F}.
Arguments NoConstant {F}.
Arguments NoStandardize {F}.

(** /repo/src/model.rs:89-116, [ModelBuilderData] without the borrowed data. *)
Record builder (F : Type) := Builder {
  b_offset : option (list F);
  b_weights : option (list F);
  b_freqs : option (list F);
  b_standardize : bool;
  b_intercept : bool;
  b_error : option dup
}.
Arguments Builder {F}.
Arguments b_offset {F}.
Arguments b_weights {F}.
Arguments b_freqs {F}.
Arguments b_standardize {F}.
Arguments b_intercept {F}.
Arguments b_error {F}.

Section Yval.
  Context {S : Type} {SOps : FloatOps S} {F : Type} {Ops : FloatOps F}.
  (** [F::from(x)] for a float [x] of the source type; it never fails between float types. *)
  Variable cast : S -> F.

  (** [into_float] of the response types; [None] is [InvalidY].
      /repo/src/response/linear.rs:31-33, logistic.rs:32-34, 43-48, 54-59, poisson.rs:32-34,
      binomial.rs:23-25, exponential.rs:32-37, 43-48, gamma.rs:31-36, 42-47,
      inverse_gaussian.rs:26-31, 37-42.  Pairs of a family and a response type that have no
      [Yval] implementation do not compile; they are given [None] here.  Binomial
      responses are [u16] in the code and any natural number here. *)
  Definition into_float (fam : family) (y : yval S) : option F :=
    match fam, y with
    | FLinear, YFloat x => Some (cast x)
    | (FLogistic | FCloglog), YBool b => Some (if b then fone else fzero)
    | (FLogistic | FCloglog), YFloat x =>
        if fleb fzero x && fleb x fone then Some (cast x) else None
    | FPoisson, YInt n => Some (fnat n)
    | FBinomial _, YInt n => Some (fnat n)
    | (FExponential | FExponentialLog | FGamma | FGammaLog | FInvGaussian | FInvGaussianLog),
      YFloat x => if fleb x fzero then None else Some (cast x)
    | _, _ => None
    end.

  (** [iter().map(into_float).collect::<Result<_, _>>()?], /repo/src/model.rs:220-224: the first
      invalid response, counted from [i], is reported. *)
  Fixpoint convert_y (fam : family) (i : nat) (ys : list (yval S)) : outcome F (list F) :=
    match ys with
    | [] => Ok []
    | y :: ys' =>
        match into_float fam y with
        | None => Err (InvalidY i)
        | Some v => do vs <- convert_y fam (Datatypes.S i) ys'; Ok (v :: vs)
        end
    end.

  (** /repo/src/model.rs:63-84, [ModelBuilder::data]. *)
  Definition builder_new : builder F := Builder None None None true true None.

  (** /repo/src/model.rs:127-180: the setters. *)
  Definition apply_setter (b : builder F) (s : setter F) : builder F :=
    match s with
    | SetOffset off =>
        let e := match b_offset b with Some _ => Some DupOffset | None => b_error b end in
        Builder (Some off) (b_weights b) (b_freqs b) (b_standardize b) (b_intercept b) e
    | SetFreq fr =>
        let e := match b_freqs b with Some _ => Some DupFreq | None => b_error b end in
        Builder (b_offset b) (b_weights b) (Some (map fnat fr)) (b_standardize b) (b_intercept b) e
    | SetVar w =>
        let e := match b_weights b with Some _ => Some DupVar | None => b_error b end in
        Builder (b_offset b) (Some w) (b_freqs b) (b_standardize b) (b_intercept b) e
    | NoConstant =>
        Builder (b_offset b) (b_weights b) (b_freqs b) (b_standardize b) false (b_error b)
    | NoStandardize =>
        Builder (b_offset b) (b_weights b) (b_freqs b) false (b_intercept b) (b_error b)
    end.

  (** /repo/src/model.rs:182-243, [build].  The warning of 207-212 is not modelled. *)
  Definition build (fam : family) (ys : list (yval S)) (x : mat F) (b : builder F)
    : outcome F (dataset F) :=
    match b_error b with
    | Some e => Err (BuildError e)
    | None =>
        let n := length ys in
        if negb (n =? nrows x) then Err (BadInput BadRows)
        else if match b_offset b with Some off => negb (n =? length off) | None => false end
        then Err (BadInput BadOffset)
        else
          do y <- convert_y fam 0 ys;
          match finalize_chk (Dataset y x (b_offset b) (b_weights b) (b_freqs b) false None)
                             (b_standardize b) (b_intercept b) with
          | Some d => Ok d
          | None => Panic
          end
    end.

  (** The whole chain [ModelBuilder::data(..).s1(..).s2(..)...build()], /repo/src/model.rs:59-80,
      127-242. *)
  Definition build_with (fam : family) (ys : list (yval S)) (x : mat F) (ss : list (setter F))
    : outcome F (dataset F) :=
    build fam ys x (fold_left apply_setter ss builder_new).
End Yval.
