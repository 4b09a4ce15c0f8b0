(** Links that a user implements.  Models the traits [Link] and [Transform] of /repo/src/link.rs as
    far as a user supplies them, the families that take a link as parameter, and the links of the
    documentation and of /repo/tests/custom_link.rs. *)
From Coq Require Import List Bool Arith.
From Verif Require Import Num Arr Families.
Import ListNotations.

(** What an implementation consists of: [Link::func] and [Link::func_inv]
    (/repo/src/link.rs:107-114), [Transform::nat_param] and [Transform::d_nat_param]
    (/repo/src/link.rs:118-128) for one element; the code gets arrays, and an implementation that
    does not work element by element is not modelled.  The other methods of [Transform] are the
    defaults of /repo/src/link.rs:132-165. *)
Record custom_link (F : Type) := CustomLink {
  cl_func : F -> F;
  cl_inv : F -> F;
  cl_nat : F -> F;
  cl_dnat : F -> F
}.
Arguments CustomLink {F}.
Arguments cl_func {F}.
Arguments cl_inv {F}.
Arguments cl_nat {F}.
Arguments cl_dnat {F}.

(** A family with another link.  Everything but the link stays: the implementations of [Glm] are
    generic in it (/repo/src/response/linear.rs:54-80, logistic.rs:75-112, poisson.rs:52-76,
    exponential.rs:70-99, gamma.rs:70-99, inverse_gaussian.rs:49-78; binomial.rs has no such
    parameter).  The link does not implement [Canonical] (/repo/src/link.rs:172-203), so the methods
    that adjust errors and variances are the defaults. *)
Definition with_link {F : Type} (g : Glm F) (l : custom_link F) : Glm F := {|
  canonical := false; free_dispersion := free_dispersion g;
  link_func := cl_func l; link_inv := cl_inv l;
  nat_param := cl_nat l; d_nat_param := cl_dnat l;
  log_partition := log_partition g; variance := variance g;
  log_like_natural := log_like_natural g; log_like_sat := log_like_sat g |}.

Section Links.
  Context {F : Type} {Ops : FloatOps F}.

  (** The square-root link of the documentation, for Poisson: /repo/src/link.rs:46-60. *)
  Definition sqrt_link : custom_link F :=
    CustomLink fsqrt (fun w => fmul w w) (fun w => fmul ftwo (fln w)) (fun w => fdiv ftwo w).

  (** [LinTran], /repo/tests/custom_link.rs:15-38, for Linear: there [a] is 2.5, [b] is 3.4 and [c]
      is 0.4. *)
  Definition lin_tran (a b c : F) : custom_link F :=
    CustomLink (fun y => fsub (fmul a y) b) (fun w => fmul (fadd w b) c)
               (fun w => fmul (fadd w b) c) (fun _ => c).

  (** A canonical link implemented by hand: the link of [g] with the identity as [nat_param] and 1 as
      [d_nat_param], i.e. the bodies of /repo/src/link.rs:178-186 in an implementation of
      [Transform] (/repo/src/link.rs:118-166) rather than of [Canonical]. *)
  Definition by_hand (g : Glm F) : custom_link F :=
    CustomLink (link_func g) (link_inv g) (fun w => w) (fun _ => fone).
End Links.
