(** A concrete use of the cells. *)
From Coq Require Import List Bool Arith Reals.
From Verif Require Import Num Arr Families Data Reg Irls FitM RInst SpecFit SpecStat Wit WitReal WitFit GlmWit StatWit
  Cache SpecCache CacheProps MiscWit.
From Coq Require Import List.
Import ListNotations.
Local Open Scope R_scope.

(** An inversion that always fails. *)
Definition no_inv (A : mat R) : option (mat R) := None.

(** The covariance is asked for when the inversion fails, again when it succeeds, and a third time
    when it fails again. *)
Lemma cache_example {e : MachEps} : exists ft Cv, fit_of FLinear ft /\ f_result ft = [1; 2] /\
  flaky inv_small no_inv /\ flaky inv_small inv_small /\
  fst (calls (glm_of FLinear) cramer 0 ds0 ft
         [(no_inv, Mcovariance); (inv_small, Mcovariance); (no_inv, Mcovariance);
          (inv_small, Mdeviance)] empty_cache) =
  [Err LinalgError; Ok (VMat Cv); Ok (VMat Cv); Ok (VNum (deviance (glm_of FLinear) ft))].
Proof.
  destruct (@wald_example e) as (ft & Cv & H1 & _ & _ & H4 & _ & _ & H7).
  assert (F1 : flaky inv_small no_inv) by (intros a; right; reflexivity).
  assert (F2 : flaky inv_small inv_small) by (intros a; left; reflexivity).
  exists ft, Cv. repeat (split; [assumption|]).
  pose (p1 := [(no_inv, @Mcovariance R)]).
  pose (p3 := p1 ++ [(inv_small, Mcovariance); (no_inv, Mcovariance)]).
  assert (Hf : forall p, In p p3 -> flaky inv_small (fst p))
    by (intros p [<-|[<-|[<-|[]]]]; assumption).
  pose proof (@C49_retry_lemma R _ (glm_of FLinear) cramer inv_small 0 ds0 ft p1 Mcovariance) as A.
  cbv zeta in A. specialize (A (fun p Hp => Hf p (in_or_app _ _ _ (or_introl Hp)))).
  pose proof (@C49_retry_lemma R _ (glm_of FLinear) cramer inv_small 0 ds0 ft p3 Mdeviance Hf) as D.
  cbv zeta in D.
  pose proof (@C49_kept_lemma R _ (glm_of FLinear) cramer 0 ds0 ft p1 [] inv_small no_inv Mcovariance
    (VMat Cv) I) as B.
  cbn [fresh] in A. unfold matr in A. rewrite H4 in A. cbn [bind] in A.
  cbn [calls p1 p3 app] in *.
  destruct (call (glm_of FLinear) cramer no_inv 0 ds0 ft Mcovariance empty_cache)
    as [o k1] eqn:E1. cbn [snd] in A, B.
  assert (Eo : o = Err LinalgError).
  { replace o with (fst (call (glm_of FLinear) cramer no_inv 0 ds0 ft Mcovariance empty_cache))
      by (rewrite E1; reflexivity). reflexivity. }
  subst o.
  destruct (call (glm_of FLinear) cramer inv_small 0 ds0 ft Mcovariance k1) as [o2 k2].
  cbn [fst snd] in *. subst o2. specialize (B eq_refl).
  destruct (call (glm_of FLinear) cramer no_inv 0 ds0 ft Mcovariance k2) as [o3 k3].
  cbn [fst snd] in *. subst o3.
  destruct (call (glm_of FLinear) cramer inv_small 0 ds0 ft Mdeviance k3) as [o4 k4].
  cbn [fst snd] in *. subst o4. reflexivity.
Qed.
