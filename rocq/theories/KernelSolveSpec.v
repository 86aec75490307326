(** * Kernel linear systems: specification. *)

From Coq Require Import ZArith Reals.
From Verif Require Import Formula GradSpec KernelSum KernelSumSpec.
Local Open Scope R_scope.

(** The arguments, the array U being the unknown. *)
Definition at_unknown (inv : Z) (U : nat -> nat -> R) (A : arguments) : arguments :=
  fun a r k => if Z.eqb a inv then U r k else A a r k.

(** (alpha Id + K) U, where K U is the sum of the formula with U as the unknown. *)
Definition regularised (decl : declaration) (A : arguments) (M N : nat) (f : fm) (tagI : nat) (inv : Z)
    (alpha : R) (U : nat -> nat -> R) (n k : nat) : R :=
  match tagI with
  | O => total N (fun j => eval f (point decl (at_unknown inv U A) n j) k)
  | _ => total M (fun i => eval f (point decl (at_unknown inv U A) i n) k)
  end + alpha * U n k.

(** The scalar product of arrays with n rows and d columns. *)
Definition pairing (n d : nat) (U V : nat -> nat -> R) : R := total n (fun r => inner d (U r) (V r)).

Definition same_array (n d : nat) (U V : nat -> nat -> R) : Prop :=
  forall r k, (r < n)%nat -> (k < d)%nat -> U r k = V r k.

Definition operator := (nat -> nat -> R) -> nat -> nat -> R.

Definition linear_op (n d : nat) (L : operator) : Prop := forall U c V,
  same_array n d (L (fun r k => U r k + c * V r k)) (fun r k => L U r k + c * L V r k).
Definition symmetric_op (n d : nat) (L : operator) : Prop := forall U V,
  pairing n d U (L V) = pairing n d (L U) V.
Definition positive_op (n d : nat) (L : operator) : Prop := forall U,
  ~ same_array n d U (fun _ _ => 0) -> 0 < pairing n d U (L U).

(** U is the solution of the system. *)
Definition the_solution (n d : nat) (L : operator) (B U : nat -> nat -> R) : Prop :=
  same_array n d (L U) B /\ forall V, same_array n d (L V) B -> same_array n d V U.
