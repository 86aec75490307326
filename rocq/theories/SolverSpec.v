(** * Linear operators and residuals. *)

From Coq Require Import Reals.
From Verif Require Import Solver.
Local Open Scope R_scope.

(** The operator is linear on arrays of size [n], of which only the first [n] values count. *)
Definition linear (n : nat) (L : vec -> vec) : Prop :=
  (forall u v, (forall i, (i < n)%nat -> u i = v i) -> forall i, (i < n)%nat -> L u i = L v i)
  /\ (forall u c v i, (i < n)%nat -> L (axpy u c v) i = L u i + c * L v i).

Definition symmetric (n : nat) (L : vec -> vec) : Prop :=
  forall u v, dot n u (L v) = dot n (L u) v.

Definition positive (n : nat) (L : vec -> vec) : Prop :=
  forall u, ~ (forall i, (i < n)%nat -> u i = 0) -> 0 < dot n u (L u).

(** The squared norm of the residual. *)
Definition squared_residual (n : nat) (L : vec -> vec) (a b : vec) : R :=
  total n (fun i => (L a i - b i) ^ 2).
