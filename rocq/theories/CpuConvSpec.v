(** Specification of the output of a dense reduction over two-dimensional arguments. *)

From Coq Require Import ZArith Reals Arith List Permutation.
From Verif Require Import Result Formula XReal Reductions KernelSum KernelSumSpec CpuReduc Loader LseSpec.
Import ListNotations.

(** C-contiguous arguments: component k of row r is at position r*dim + k. *)
Definition contiguous (decl : declaration) (A : memory) : arguments :=
  fun a r k => A a (r * fst (decl a) + k).

(** Values of F(x_i, y_j, p) over which output row n is reduced: over j when tagI = 0 (n is
    the index i), over i when tagI = 1 (n is the index j). *)
Definition terms (decl : declaration) (A : memory) (f : fm) (tagI n m : nat) : cells :=
  fun k => Fin (eval f (match tagI with
                        | O => point decl (contiguous decl A) n m
                        | _ => point decl (contiguous decl A) m n
                        end) k).

(** Number of output rows, and of terms per row. *)
Definition out_rows (tagI M N : nat) : nat := match tagI with O => M | _ => N end.
Definition red_terms (tagI M N : nat) : nat := match tagI with O => N | _ => M end.

(** Categories are 0, 1 or 2. *)
Definition categories (decl : declaration) : Prop := forall a, snd (decl a) <= 2.

(** A completion order of n iterations. *)
Definition complete (schedule : nat -> list nat) : Prop :=
  forall n, Permutation (schedule n) (seq 0 n).

(** Reductions applicable to a formula of dimension d (reductions/*.py constructors). *)
Inductive reduction_of (d : nat) : reduction -> Prop :=
| RSum : reduction_of d (Sum_Red d)
| ROpt mx : reduction_of d (Opt_Red mx d)
| ROptArg mx o : reduction_of d (OptArg_Red mx o d)
| RKMin o K : reduction_of d (KMin_Red o K d)
| RLse w : d = S w -> reduction_of d (LSE_Red w).

(** Schemes whose code can be generated for a reduction. *)
Definition available (r : reduction) (s : scheme) : Prop :=
  match s with
  | direct_sum => True
  | block_sum => exists p, rpair r = Ok p
  | kahan_scheme => exists p, rkahan r = Ok p
  end.

(** Terms of a log-sum-exp: component 0 is the exponent, the others are the weights. *)
Definition entry_of (decl : declaration) (A : memory) (f : fm) (tagI n m : nat) : entry :=
  let e := match tagI with O => point decl (contiguous decl A) n m
                         | _ => point decl (contiguous decl A) m n end in
  (Some (eval f e 0), fun k => eval f e (S k)).
