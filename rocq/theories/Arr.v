(** Arrays.  [Array1<F>] is [list F]; [Array2<F>] is a column count and a list of rows.
    Models the ndarray operations the crate calls, on arrays of fitting shape. *)
From Coq Require Import List Bool Arith.
From Verif Require Import Num.
Import ListNotations.

(** Element-wise binary operation on two [Array1] of equal length (ndarray [&a op &b], e.g.
    /repo/src/data.rs:46, /repo/src/fit.rs:700, 785, 808).  On
    unequal lengths the list version truncates; where a user can reach a mismatch the model uses
    [bc2] below instead. *)
Fixpoint map2 {A B C} (f : A -> B -> C) (a : list A) (b : list B) : list C :=
  match a, b with
  | x :: a', y :: b' => f x y :: map2 f a' b'
  | _, _ => []
  end.

(** ndarray's run-time shape rule for [&a op b] on one-dimensional arrays: equal lengths, or one
    of them has length one and is broadcast; anything else panics ([None]).  Used for
    /repo/src/data.rs:46, 61-121, 307-346, where lengths come from the user. *)
Definition bc2 {A B C} (f : A -> B -> C) (a : list A) (b : list B) : option (list C) :=
  if length a =? length b then Some (map2 f a b)
  else match a, b with
       | [x], _ => Some (map (f x) b)
       | _, [y] => Some (map (fun x => f x y) a)
       | _, _ => None
       end.

(** [Array2<F>], e.g. the field [x] of /repo/src/data.rs:11-32. *)
Record mat (F : Type) := Mat { mcols : nat; mrows : list (list F) }.
Arguments Mat {F}.
Arguments mcols {F}.
Arguments mrows {F}.

Section Arr.
  Context {F : Type} {Ops : FloatOps F}.

  (** [a.sum()], e.g. /repo/src/data.rs:56, 121, /repo/src/glm.rs:82.  The order of summation in ndarray is unrolled and not modelled. *)
  Definition vsum (v : list F) : F := fold_right fadd fzero v.

  (** [&a + &b] for [Array1] of equal length, e.g. /repo/src/data.rs:46, /repo/src/irls.rs:146. *)
  Definition vadd (a b : list F) := map2 fadd a b.
  (** [&a - &b], e.g. /repo/src/fit.rs:808, /repo/src/data.rs:355. *)
  Definition vsub (a b : list F) := map2 fsub a b.
  (** [&a * &b], e.g. /repo/src/data.rs:396, /repo/src/fit.rs:700, 785. *)
  Definition vmul (a b : list F) := map2 fmul a b.
  (** [&a / &b], e.g. /repo/src/data.rs:356, /repo/src/fit.rs:803. *)
  Definition vdiv (a b : list F) := map2 fdiv a b.
  (** [a * c] with a scalar, e.g. /repo/src/fit.rs:802. *)
  Definition vscale (a : list F) (c : F) := map (fun x => fmul x c) a.
  (** [a / c] with a scalar, e.g. /repo/src/data.rs:319, /repo/src/fit.rs:756. *)
  Definition vdivs (a : list F) (c : F) := map (fun x => fdiv x c) a.

  (** [Array1::ones], [Array1::zeros], [Array1::from_elem], e.g. /repo/src/data.rs:316, 342,
      /repo/src/irls.rs:329-331. *)
  Definition vconst (n : nat) (c : F) : list F := repeat c n.

  (** [a.dot(&b)] for [Array1], e.g. /repo/src/fit.rs:897, 939. *)
  Definition dot (a b : list F) : F := vsum (vmul a b).

  (** [a == b] for [Array1], /repo/src/irls.rs:227. *)
  Fixpoint veqb (a b : list F) : bool :=
    match a, b with
    | [], [] => true
    | x :: a', y :: b' => feqb x y && veqb a' b'
    | _, _ => false
    end.

  (** Element access [v[i]], e.g. /repo/src/fit.rs:597; only used with [i] in range. *)
  Definition vget (v : list F) (i : nat) : F := nth i v fzero.
  (** [m.row(i)], e.g. /repo/src/fit.rs:451; only used with [i] in range. *)
  Definition mrow (m : mat F) (i : nat) : list F := nth i (mrows m) [].
  (** [m[[i, j]]], e.g. /repo/src/data.rs:432. *)
  Definition mget (m : mat F) (i j : nat) : F := vget (mrow m i) j.
  (** [m.column(j)]: a row of the transpose, /repo/src/data.rs:151. *)
  Definition mcol (m : mat F) (j : nat) : list F := map (fun r => vget r j) (mrows m).

  (** [m.nrows()], e.g. /repo/src/data.rs:309, 506. *)
  Definition nrows (m : mat F) : nat := length (mrows m).

  (** [x.dot(&b)] for a matrix and a vector, e.g. /repo/src/data.rs:43, /repo/src/irls.rs:102. *)
  Definition mat_vec (m : mat F) (b : list F) : list F := map (fun r => dot r b) (mrows m).

  (** [a.dot(&b)] for matrices, e.g. /repo/src/irls.rs:140, /repo/src/fit.rs:174, 374. *)
  Definition mat_mul (a b : mat F) : mat F :=
    Mat (mcols b)
        (map (fun r => map (fun j => dot r (mcol b j)) (seq 0 (mcols b))) (mrows a)).

  (** [m.t()], e.g. /repo/src/data.rs:151, 194. *)
  Definition mtrans (m : mat F) : mat F :=
    Mat (nrows m) (map (mcol m) (seq 0 (mcols m))).

  (** [m * &v]: a row vector broadcast over the rows, e.g. /repo/src/irls.rs:140,
      /repo/src/fit.rs:326. *)
  Definition mmul_row (m : mat F) (v : list F) : mat F :=
    Mat (mcols m) (map (fun r => vmul r v) (mrows m)).

  (** [m * &v.insert_axis(Axis(1))]: a column vector broadcast over the columns, e.g.
      /repo/src/fit.rs:372, 756. *)
  Definition mmul_col (m : mat F) (v : list F) : mat F :=
    Mat (mcols m) (map2 (fun r c => map (fun x => fmul x c) r) (mrows m) v).

  (** [m * c] with a scalar, e.g. /repo/src/fit.rs:174. *)
  Definition mscale (m : mat F) (c : F) : mat F :=
    Mat (mcols m) (map (fun r => vscale r c) (mrows m)).

  (** [m.diag()], e.g. /repo/src/fit.rs:403, 951. *)
  Definition mdiag (m : mat F) : list F := map (fun i => mget m i i) (seq 0 (nrows m)).

  (** Add [v] to the diagonal, /repo/src/regularization.rs:116-118, 216-218, 330-333. *)
  Definition add_diag (m : mat F) (v : list F) : mat F :=
    Mat (mcols m)
        (map (fun i => map (fun j => if i =? j then fadd (mget m i j) (vget v i) else mget m i j)
                           (seq 0 (mcols m)))
             (seq 0 (nrows m))).

  (** A matrix given entry by entry; used for the block operations of /repo/src/data.rs:425-460. *)
  Definition mbuild (n p : nat) (f : nat -> nat -> F) : mat F :=
    Mat p (map (fun i => map (f i) (seq 0 p)) (seq 0 n)).

  (** Shape of a matrix: [n] rows of length [p] (the invariant of [Array2], cf.
      /repo/src/data.rs:309). *)
  Definition mat_shape (n p : nat) (m : mat F) : Prop :=
    mcols m = p /\ length (mrows m) = n /\ Forall (fun r => length r = p) (mrows m).
End Arr.
