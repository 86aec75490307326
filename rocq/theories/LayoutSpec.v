(** Entries of an array by their index, independently of the functions that build arrays. *)

From Coq Require Import List Arith Reals.
Import ListNotations.

(** [idx] is an index of an array of this shape. *)
Definition index (shape idx : list nat) : Prop := Forall2 (fun i n => i < n) idx shape.

(** Number of an index in row-major order: the first index varies slowest. *)
Fixpoint number_from (acc : nat) (shape idx : list nat) : nat :=
  match shape, idx with
  | n :: shape, i :: idx => number_from (acc * n + i) shape idx
  | _, _ => acc
  end.
Definition number (shape idx : list nat) : nat := number_from 0 shape idx.

(** Number of entries. *)
Fixpoint entries_of (shape : list nat) : nat :=
  match shape with [] => 1 | n :: shape => n * entries_of shape end.

(** Last dimensions of the K smallest values of f components, and the index there of the value
    number s of component k: a last dimension of size one is not given to the user. *)
Definition kshape (K f : nat) : list nat := if Nat.eqb f 1 then [K] else [K; f].
Definition kindex (f s k : nat) : list nat := if Nat.eqb f 1 then [s] else [s; k].

(** sum over j < n of w_j exp(v_j). *)
Fixpoint exp_weighted (n : nat) (v w : nat -> R) : R :=
  match n with O => 0%R | S n => (exp_weighted n v w + w n * exp (v n))%R end.
