(** Numbers, errors and outcomes.
    Models /repo/src/num.rs, /repo/src/error.rs and /repo/src/math.rs. *)
From Coq Require Import List Bool Arith.
Import ListNotations.

(** Operations the crate uses on its generic float type.
    /repo/src/num.rs:9-28 (trait [Float: NdFloat + Lapack]): [half], [two], [total_cmp] are the
    trait's own methods, the rest come from num_traits/NdFloat.  No laws are assumed: a
    definition or theorem over every [FloatOps F] covers f32, f64 (with NaN, infinities and
    rounding) and exact arithmetic alike.
    [fgolden] is [F::from(0.618033988749894)], /repo/src/irls.rs:359.
    [feight] is [F::from(8.)], /repo/src/regularization.rs:157.
    [fnat n] is [F::from(n)] for an integer [n]; [fsqrt_nat n] is [F::from((n as f64).sqrt())],
    /repo/src/regularization.rs:223-224. *)
Class FloatOps (F : Type) := {
  fzero : F;
  fone : F;
  fadd : F -> F -> F;
  fsub : F -> F -> F;
  fmul : F -> F -> F;
  fdiv : F -> F -> F;
  fneg : F -> F;
  fabs : F -> F;
  fsqrt : F -> F;
  frecip : F -> F;
  fln : F -> F;
  fexp : F -> F;
  fln1p : F -> F;
  fexpm1 : F -> F;
  fsignum : F -> F;
  feqb : F -> F -> bool;
  fltb : F -> F -> bool;
  fleb : F -> F -> bool;
  ftotal : F -> F -> comparison;
  fnat : nat -> F;
  fsqrt_nat : nat -> F;
  feps : F;
  finf : F;
  fhalf : F;
  ftwo : F;
  feight : F;
  fgolden : F
}.

Section Derived.
  Context {F : Type} {Ops : FloatOps F}.

  (** [a > b] in Rust, e.g. /repo/src/irls.rs:246, 364, 379. *)
  Definition fgtb (a b : F) : bool := fltb b a.

  (** /repo/src/num.rs:18-24, [Float::sign]. *)
  Definition fsign (x : F) : F :=
    if feqb x fzero then fzero else fsignum x.

  (** /repo/src/math.rs:5-13, [prod_log]. *)
  Definition prod_log (x : F) : F :=
    if feqb x fzero then fzero else fmul x (fln x).
End Derived.

(** /repo/src/irls.rs:168-177, [IrlsStep]: the coefficients of an iterate and its regularized
    likelihood. *)
Record step (F : Type) := Step { s_guess : list F; s_like : F }.
Arguments Step {F}.
Arguments s_guess {F}.
Arguments s_like {F}.

(** Which builder option was given twice, /repo/src/model.rs:127-162. *)
Inductive dup := DupOffset | DupFreq | DupVar.

(** Which lengths disagree, /repo/src/model.rs:191-204. *)
Inductive bad := BadRows | BadOffset.

(** /repo/src/error.rs:8-26, [RegressionError].  The texts are replaced by tags: [InvalidY] keeps
    the position of the reported response instead of its printed value. *)
Inductive error (F : Type) :=
| BadInput (b : bad)
| InvalidY (i : nat)
| BuildError (d : dup)
| LinalgError
| MaxIter (n_iter : nat) (history : list (step F)).
Arguments BadInput {F}.
Arguments InvalidY {F}.
Arguments BuildError {F}.
Arguments LinalgError {F}.
Arguments MaxIter {F}.

(** Result of running a piece of Rust code: a value, a [RegressionError], a panic, or a [while]
    loop that used up the fuel the model gave it.  [Ok] and [Err] are those of [RegressionResult],
    /repo/src/error.rs:28. *)
Inductive outcome (F A : Type) :=
| Ok (a : A)
| Err (e : error F)
| Panic
| Diverge.
Arguments Ok {F A}.
Arguments Err {F A}.
Arguments Panic {F A}.
Arguments Diverge {F A}.

(** The [?] operator on a [Result] (as used throughout /repo/src/fit.rs, e.g. 133, 162, 390).  A
    panic or an endless loop ends the computation as well. *)
Definition bind {F A B} (o : outcome F A) (k : A -> outcome F B) : outcome F B :=
  match o with
  | Ok a => k a
  | Err e => Err e
  | Panic => Panic
  | Diverge => Diverge
  end.

Notation "'do' x <- e ; k" := (bind e (fun x => k))
  (at level 200, x pattern, e at level 100, k at level 200, right associativity).
