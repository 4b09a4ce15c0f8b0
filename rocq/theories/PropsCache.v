(** The cached statistics are transparent: C49.  Vocabulary: Cache.v ([calls], [call],
    [empty_cache]: the methods with their cells) and SpecCache.v ([fresh]: every method without
    cells; [flaky]; [kept]).  Any floating-point type. *)
From Coq Require Import List Bool Arith Reals.
From Verif Require Import Num Arr Families Data Reg Irls FitM RInst SpecFit SpecStat Wit WitReal WitFit GlmWit StatWit
  Cache SpecCache CacheProps MiscWit CacheWit.
From Coq Require Import List.
Import ListNotations.

(** *** C49: any sequence of calls gives, call by call, what a fresh fit gives. *)
Theorem C49_transparent :
  forall (F : Type) (Ops : FloatOps F) g solveh inv sfuel ds ft ms,
    fst (calls g solveh sfuel ds ft (map (fun m => (inv, m)) ms) empty_cache) =
    map (fresh g solveh inv sfuel ds ft) ms.
Proof. exact @C49_lemma. Qed.
Print Assumptions C49_transparent.

(** The same when inversions failed during earlier calls: the failures leave no trace. *)
Theorem C49_retried :
  forall (F : Type) (Ops : FloatOps F) g solveh inv sfuel ds ft prog m,
    (forall p, In p prog -> flaky inv (fst p)) ->
    fst (call g solveh inv sfuel ds ft m (snd (calls g solveh sfuel ds ft prog empty_cache))) =
    fresh g solveh inv sfuel ds ft m.
Proof. exact @C49_retry_lemma. Qed.
Print Assumptions C49_retried.

(** A call made while inversions may fail reports that failure or gives the fresh answer. *)
Theorem C49_failing :
  forall (F : Type) (Ops : FloatOps F) g solveh inv sfuel ds ft prog,
    (forall p, In p prog -> flaky inv (fst p)) ->
    Forall2 (fun p o => o = fresh g solveh inv sfuel ds ft (snd p) \/ o = Err LinalgError)
            prog (fst (calls g solveh sfuel ds ft prog empty_cache)).
Proof. exact @C49_fail_lemma. Qed.
Print Assumptions C49_failing.

(** A success is kept: later calls repeat it whatever the inversion does then. *)
Theorem C49_kept :
  forall (F : Type) (Ops : FloatOps F) g solveh sfuel ds ft before after inv inv' m v,
    kept m ->
    fst (call g solveh inv sfuel ds ft m
           (snd (calls g solveh sfuel ds ft before empty_cache))) = Ok v ->
    fst (call g solveh inv' sfuel ds ft m
           (snd (calls g solveh sfuel ds ft (before ++ (inv, m) :: after) empty_cache))) = Ok v.
Proof. exact @C49_kept_lemma. Qed.
Print Assumptions C49_kept.

(** No cell is entered while its own initialization is running; any inversions. *)
Theorem C49_no_reentry :
  forall (F : Type) (Ops : FloatOps F) g solveh sfuel ds ft prog,
    k_reentered (snd (calls g solveh sfuel ds ft prog empty_cache)) = false.
Proof. exact @C49_reentry_lemma. Qed.
Print Assumptions C49_no_reentry.

(** A cell whose initializer asked for the same cell would be recorded as such, and would abort. *)
Theorem C49_reentry_aborts :
  forall (F : Type) c (v : cell_ty F c) k,
    k_val k c = None ->
    fst (get_or_try_init c (get_or_try_init c (lift (Ok v))) k) = Panic /\
    k_reentered (snd (get_or_try_init c (get_or_try_init c (lift (Ok v))) k)) = true.
Proof. exact reentry_lemma. Qed.
Print Assumptions C49_reentry_aborts.
Example C49_reentry_applies : k_val (@empty_cache R) CHat = None.
Proof. exact eq_refl. Qed.

Example C49_applies :
  forall (e : MachEps), exists ft Cv, fit_of FLinear ft /\ f_result ft = [1; 2]%R /\
    flaky inv_small no_inv /\ flaky inv_small inv_small /\
    fst (calls (glm_of FLinear) cramer 0 ds0 ft
           [(no_inv, Mcovariance); (inv_small, Mcovariance); (no_inv, Mcovariance);
            (inv_small, Mdeviance)] empty_cache) =
    [Err LinalgError; Ok (VMat Cv); Ok (VMat Cv); Ok (VNum (deviance (glm_of FLinear) ft))].
Proof. exact @cache_example. Qed.
