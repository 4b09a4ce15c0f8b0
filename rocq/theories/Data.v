(** Datasets, weights and standardization.  Models /repo/src/data.rs. *)
From Coq Require Import List Bool Arith.
From Verif Require Import Num Arr.
Import ListNotations.

(** /repo/src/data.rs:284-291, [Standardizer]. *)
Record standardizer (F : Type) := Std { shifts : list F; scales : list F }.
Arguments Std {F}.
Arguments shifts {F}.
Arguments scales {F}.

(** /repo/src/data.rs:7-29, [Dataset]. *)
Record dataset (F : Type) := Dataset {
  d_y : list F;
  d_x : mat F;
  d_offset : option (list F);
  d_weights : option (list F);
  d_freqs : option (list F);
  d_intercept : bool;
  d_std : option (standardizer F)
}.
Arguments Dataset {F}.
Arguments d_y {F}.
Arguments d_x {F}.
Arguments d_offset {F}.
Arguments d_weights {F}.
Arguments d_freqs {F}.
Arguments d_intercept {F}.
Arguments d_std {F}.

Section Data.
  Context {F : Type} {Ops : FloatOps F}.
  Implicit Type d : dataset F.

  (** /repo/src/data.rs:42-50, [linear_predictor_std]. *)
  Definition linear_predictor_std d (b : list F) : list F :=
    let lp := mat_vec (d_x d) b in
    match d_offset d with
    | Some off => vadd lp off
    | None => lp
    end.

  (** /repo/src/data.rs:53-58, [n_obs]. *)
  Definition n_obs d : F :=
    match d_freqs d with
    | None => fnat (length (d_y d))
    | Some f => vsum f
    end.

  (** /repo/src/data.rs:98-103, [apply_freq_weights], on arrays of equal length. *)
  Definition apply_freq_weights d (v : list F) : list F :=
    match d_freqs d with
    | None => v
    | Some f => vmul f v
    end.

  (** /repo/src/data.rs:110-115, [apply_var_weights], on arrays of equal length. *)
  Definition apply_var_weights d (v : list F) : list F :=
    match d_weights d with
    | None => v
    | Some w => vmul w v
    end.

  (** /repo/src/data.rs:106-108, [apply_total_weights]. *)
  Definition apply_total_weights d (v : list F) : list F :=
    apply_freq_weights d (apply_var_weights d v).

  (** /repo/src/data.rs:120-122, [freq_sum]. *)
  Definition freq_sum d (v : list F) : F := vsum (apply_freq_weights d v).

  (** /repo/src/data.rs:85-95, [n_eff]. *)
  Definition n_eff d : F :=
    match d_weights d with
    | None => n_obs d
    | Some w =>
        let v1 := freq_sum d w in
        let v2 := freq_sum d (vmul w w) in
        fdiv (fmul v1 v1) v2
    end.

  (** /repo/src/data.rs:124-129, [get_variance_weights]. *)
  Definition get_variance_weights d : list F :=
    match d_weights d with
    | Some w => w
    | None => vconst (length (d_y d)) fone
    end.

  (** /repo/src/data.rs:133-138, [sum_weights]. *)
  Definition sum_weights d : F :=
    match d_weights d with
    | None => n_obs d
    | Some w => freq_sum d w
    end.

  (** /repo/src/data.rs:141-143, [weighted_sum]. *)
  Definition weighted_sum d (v : list F) : F := freq_sum d (apply_var_weights d v).

  (** Right-multiplication of a [p x n] matrix by the frequency and variance weights, shared by
      [x_conj] (/repo/src/data.rs:152-159) and [x_conj_ext] (/repo/src/data.rs:195-202). *)
  Definition weight_cols d (xt : mat F) : mat F :=
    let xt := match d_freqs d with None => xt | Some f => mmul_row xt f end in
    match d_weights d with None => xt | Some w => mmul_row xt w end.

  (** /repo/src/data.rs:150-160, [x_conj]. *)
  Definition x_conj d : mat F := weight_cols d (mtrans (d_x d)).

  (** /repo/src/data.rs:362-364, [Standardizer::inverse_transform]. *)
  Definition inverse_transform (s : standardizer F) (x : mat F) : mat F :=
    Mat (mcols x) (map (fun r => vadd (vmul r (scales s)) (shifts s)) (mrows x)).

  (** /repo/src/data.rs:354-357, [Standardizer::transform_inplace]. *)
  Definition transform (s : standardizer F) (x : mat F) : mat F :=
    Mat (mcols x) (map (fun r => vdiv (vsub r (shifts s)) (scales s)) (mrows x)).

  (** /repo/src/data.rs:501-509, [one_pad]. *)
  Definition one_pad (x : mat F) : mat F :=
    Mat (S (mcols x)) (map (fun r => fone :: r) (mrows x)).

  (** The slice [s![.., 1..]] of /repo/src/data.rs:182 and /repo/src/fit.rs:1008. *)
  Definition drop_col0 (x : mat F) : mat F := Mat (pred (mcols x)) (map (@tl F) (mrows x)).

  (** /repo/src/data.rs:180-190, [x_orig]. *)
  Definition x_orig d : mat F :=
    let x := if d_intercept d then drop_col0 (d_x d) else d_x d in
    match d_std d with
    | Some s => inverse_transform s x
    | None => x
    end.

  (** /repo/src/data.rs:164-173, [x_ext]: the 0th column of the internal matrix in front of the
      original covariates. *)
  Definition x_ext d : mat F :=
    let xo := x_orig d in
    if d_intercept d then
      Mat (S (mcols xo)) (map2 (fun r ro => vget r 0 :: ro) (mrows (d_x d)) (mrows xo))
    else xo.

  (** /repo/src/data.rs:193-203, [x_conj_ext]. *)
  Definition x_conj_ext d : mat F := weight_cols d (mtrans (x_ext d)).

  (** /repo/src/data.rs:389-400, [inverse_transform_coefficients]. *)
  Definition inverse_transform_coefficients (s : standardizer F) (b : list F) : list F :=
    match b with
    | [] => []
    | b0 :: bs =>
        let bs' := vdiv bs (scales s) in
        fsub b0 (vsum (vmul (shifts s) bs')) :: bs'
    end.

  (** /repo/src/data.rs:404-406, [inverse_transform_coefficients_no_int]. *)
  Definition inverse_transform_coefficients_no_int (s : standardizer F) (b : list F) : list F :=
    vdiv b (scales s).

  (** /repo/src/data.rs:410-415, [transform_coefficients]. *)
  Definition transform_coefficients (s : standardizer F) (b : list F) : list F :=
    match b with
    | [] => []
    | b0 :: bs => fadd b0 (vsum (vmul (shifts s) bs)) :: vmul bs (scales s)
    end.

  (** /repo/src/data.rs:419-421, [transform_coefficients_no_int]. *)
  Definition transform_coefficients_no_int (s : standardizer F) (b : list F) : list F :=
    vmul b (scales s).

  (** /repo/src/data.rs:428-461, [Standardizer::inverse_transform_fisher].  The in-place updates
      are written as the entries of the final matrix: [row0], [col0] are the scaled first row and
      column read at lines 449-450, [f00_mu] is line 442, [block_terms] lines 453-454. *)
  Definition std_inverse_transform_fisher (s : standardizer F) (fisher : mat F) : mat F :=
    let f00 := mget fisher 0 0 in
    let sc k := vget (scales s) (pred k) in
    let mu k := vget (shifts s) (pred k) in
    let f00_mu k := fmul (mu k) f00 in
    let row0 k := fmul (mget fisher 0 k) (sc k) in
    let col0 j := fmul (mget fisher j 0) (sc j) in
    let block_terms j k :=
      fadd (fadd (fmul (mu j) (row0 k)) (fmul (col0 j) (mu k))) (fmul (mu j) (f00_mu k)) in
    mbuild (nrows fisher) (mcols fisher) (fun j k =>
      match j, k with
      | O, O => f00
      | O, S _ => fadd (row0 k) (f00_mu k)
      | S _, O => fadd (col0 j) (f00_mu j)
      | S _, S _ => fadd (fmul (mget fisher j k) (fmul (sc j) (sc k))) (block_terms j k)
      end).

  (** /repo/src/data.rs:467-473, [Standardizer::inverse_transform_fisher_no_int]. *)
  Definition std_inverse_transform_fisher_no_int (s : standardizer F) (fisher : mat F) : mat F :=
    mbuild (nrows fisher) (mcols fisher) (fun j k =>
      fmul (fmul (mget fisher j k) (vget (scales s) j)) (vget (scales s) k)).

  (** /repo/src/data.rs:480-487, [Standardizer::inverse_transform_score]. *)
  Definition std_inverse_transform_score (s : standardizer F) (score : list F) : list F :=
    match score with
    | [] => []
    | s0 :: ss => s0 :: vadd (vmul ss (scales s)) (vscale (shifts s) s0)
    end.

  (** /repo/src/data.rs:494-496, [Standardizer::inverse_transform_score_no_int]. *)
  Definition std_inverse_transform_score_no_int (s : standardizer F) (score : list F) : list F :=
    vmul score (scales s).

  (** /repo/src/data.rs:206-217, [inverse_transform_beta]. *)
  Definition inverse_transform_beta d (b : list F) : list F :=
    match d_std d with
    | Some s => if d_intercept d then inverse_transform_coefficients s b
                else inverse_transform_coefficients_no_int s b
    | None => b
    end.

  (** /repo/src/data.rs:220-231, [transform_beta]. *)
  Definition transform_beta d (b : list F) : list F :=
    match d_std d with
    | Some s => if d_intercept d then transform_coefficients s b
                else transform_coefficients_no_int s b
    | None => b
    end.

  (** /repo/src/data.rs:235-246, [inverse_transform_fisher]. *)
  Definition inverse_transform_fisher d (fisher : mat F) : mat F :=
    match d_std d with
    | Some s => if d_intercept d then std_inverse_transform_fisher s fisher
                else std_inverse_transform_fisher_no_int s fisher
    | None => fisher
    end.

  (** /repo/src/data.rs:250-261, [inverse_transform_score]. *)
  Definition inverse_transform_score d (score : list F) : list F :=
    match d_std d with
    | Some s => if d_intercept d then std_inverse_transform_score s score
                else std_inverse_transform_score_no_int s score
    | None => score
    end.

  (** ** Versions with ndarray's run-time shape checks, used while building *)

  (** Sequencing of computations that may panic: [None] is a panic of the thread (shape mismatch or
      failed assertion) in the functions of /repo/src/data.rs:61-115 and 307-346 below. *)
  Definition obind {A B} (o : option A) (k : A -> option B) : option B :=
    match o with Some a => k a | None => None end.

  (** /repo/src/data.rs:98-103 with the shape rule of [&f * rhs]. *)
  Definition apply_freq_weights_chk d (v : list F) : option (list F) :=
    match d_freqs d with None => Some v | Some f => bc2 fmul f v end.

  (** /repo/src/data.rs:110-115 with the shape rule of [w * rhs]. *)
  Definition apply_var_weights_chk d (v : list F) : option (list F) :=
    match d_weights d with None => Some v | Some w => bc2 fmul w v end.

  (** /repo/src/data.rs:106-108 with shape rules. *)
  Definition apply_total_weights_chk d (v : list F) : option (list F) :=
    obind (apply_var_weights_chk d v) (apply_freq_weights_chk d).

  (** /repo/src/data.rs:85-95 with shape rules. *)
  Definition n_eff_chk d : option F :=
    match d_weights d with
    | None => Some (n_obs d)
    | Some w =>
        obind (apply_freq_weights_chk d w) (fun fw =>
        obind (apply_freq_weights_chk d (vmul w w)) (fun fw2 =>
        Some (fdiv (fmul (vsum fw) (vsum fw)) (vsum fw2))))
    end.

  (** [&weights * x] for a column [m x 1] and a matrix [n x p]: equal [m = n], or the one that
      has a single row is broadcast, otherwise a panic (/repo/src/data.rs:318, 328). *)
  Definition bc_rows (w : list F) (rows : list (list F)) : option (list (list F)) :=
    bc2 (fun c r => map (fun x => fmul c x) r) w rows.

  (** [m.sum_axis(Axis(0))]: column sums of a matrix with [p] columns, /repo/src/data.rs:319,
      329, /repo/src/fit.rs:756. *)
  Definition sum_axis0 (p : nat) (rows : list (list F)) : list F :=
    map (fun j => vsum (map (fun r => vget r j) rows)) (seq 0 p).

  (** /repo/src/data.rs:307-346, [Standardizer::from_dataset]; [None] is a panic: a shape
      mismatch at lines 310, 314, 318, 328 or the assertion at line 325. *)
  Definition from_dataset_chk d : option (standardizer F) :=
    let n := nrows (d_x d) in
    let p := mcols (d_x d) in
    obind (apply_total_weights_chk d (vconst n fone)) (fun weights =>
    let sum_w := vsum weights in
    obind (n_eff_chk d) (fun neff =>
    obind (if n =? 0 then Some (vconst p fzero)
           else obind (bc_rows weights (mrows (d_x d))) (fun xw =>
                Some (vdivs (sum_axis0 p xw) sum_w))) (fun means =>
    obind (if n <=? 1 then Some (vconst p fone)
           else if negb (fgtb neff fone) then None
           else
             let dx2 := map (fun r => map (fun z => fmul z z) (vsub r means)) (mrows (d_x d)) in
             obind (bc_rows weights dx2) (fun dx2w =>
             let vars := vdivs (sum_axis0 p dx2w) sum_w in
             let bias := fdiv neff (fsub neff fone) in
             Some (vscale vars bias))) (fun vars =>
    let scs := map (fun v => fsqrt (if fgtb v fzero then v else fone)) vars in
    let shs := if d_intercept d then means else vconst p fzero in
    Some (Std shs scs))))).

  (** /repo/src/data.rs:61-81, [finalize_design_matrix]; [None] is a panic (the two [assert!]s at
      62-66 or [from_dataset]). *)
  Definition finalize_chk d (use_std use_intercept : bool) : option (dataset F) :=
    match d_std d with
    | Some _ => None
    | None =>
      if d_intercept d then None else
      let d1 := Dataset (d_y d) (d_x d) (d_offset d) (d_weights d) (d_freqs d) use_intercept None in
      obind (if use_std then
               obind (from_dataset_chk d1) (fun s =>
               Some (Dataset (d_y d) (transform s (d_x d)) (d_offset d) (d_weights d) (d_freqs d)
                             use_intercept (Some s)))
             else Some d1) (fun d2 =>
      Some (if use_intercept then
              Dataset (d_y d2) (one_pad (d_x d2)) (d_offset d2) (d_weights d2) (d_freqs d2)
                      (d_intercept d2) (d_std d2)
            else d2))
    end.
End Data.
