(** Specification for gradients of sum reductions: calculus on the summed output. *)

From Coq Require Import ZArith Reals.
From Verif Require Import Formula GradSpec KernelSum.
Local Open Scope R_scope.

(** All occurrences of variables in f follow the declaration. *)
Fixpoint declared (decl : declaration) (f : fm) : Prop :=
  match f with
  | Var j d c => decl j = (d, c)
  | Zero _ | Int _ | Rat _ _ => True
  | Un _ f | Lin _ f | Sel _ f => declared decl f
  | Bin _ f g | Bil _ f g | Cat f g => declared decl f /\ declared decl g
  | Ter _ f g h => declared decl f /\ declared decl g /\ declared decl h
  end.

(** All rows of argument [pos] moved by t times the rows of H. *)
Definition move_arg (pos : Z) (H : nat -> nat -> R) (A : arguments) (t : R) : arguments :=
  fun a r k => if Z.eqb a pos then A a r k + t * H r k else A a r k.

(** Number of rows of an argument of category c. *)
Definition rows (c M N : nat) : nat :=
  match c with O => M | 1%nat => N | _ => 1%nat end.

Fixpoint total (n : nat) (u : nat -> R) : R :=
  match n with O => 0 | S m => total m u + u m end.

(** sum_n <E_n, a_n>, where a_n = sum_j F(n,j) (tagI = 0) or sum_i F(i,n) (tagI = 1), and E is
    the incoming gradient. *)
Definition paired (decl : declaration) (M N : nat) (f : fm) (tagI : nat)
    (E : nat -> nat -> R) (A : arguments) : R :=
  total M (fun i => total N (fun j =>
    inner (dim f) (E (row tagI i j)) (eval f (point decl A i j)))).

(** The same quantity computed from the output of the reduction: sum_n <a_n, E_n>. *)
Definition summed_output (decl : declaration) (M N : nat) (f : fm) (tagI : nat)
    (E : nat -> nat -> R) (A : arguments) : R :=
  total (rows tagI M N) (fun n =>
    inner (dim f) (reduce_sum decl A M N {| sformula := f; stagI := tagI |} n) (E n)).
