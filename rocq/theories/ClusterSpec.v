(** Specifications for clusters and block-sparse patterns. *)

From Coq Require Import ZArith Reals Arith List Permutation Sorted.
From Verif Require Import RangesSpec.
Import ListNotations.

(** ** Patterns given by a relation between blocks *)

(** Row block I is [rows[I]]; it visits the column blocks J with [rel I J], in increasing order. *)
Definition pattern (rows cols : list (nat * nat)) (rel : nat -> nat -> bool) : list block :=
  map (fun I => {| brows := nth I rows (0, 0);
                   bcols := map (fun J => nth J cols (0, 0)) (filter (rel I) (seq 0 (length cols))) |})
      (seq 0 (length rows)).

(** ** Sorting *)

(** What argsort must return: a permutation of the indices that sorts the labels (ties in any
    order). *)
Definition sorts (argsort : list nat -> list nat) : Prop :=
  forall lab, Permutation (seq 0 (length lab)) (argsort lab) /\
              StronglySorted le (map (fun q => nth q lab 0) (argsort lab)).

(** [a'] is [a] in the order [perm]. *)
Definition reordered {T} (perm : list nat) (a a' : list T) : Prop :=
  map Some a' = map (nth_error a) perm.

Definition occurrences (k : nat) (l : list nat) : nat := count_occ Nat.eq_dec l k.

(** ** Grids *)

(** Point p is in the cell k of the grid of origin o and step s (dimension D). *)
Definition in_cell (D : nat) (o s : nat -> R) (k : nat -> Z) (p : list R) : Prop :=
  forall d, d < D -> (o d + IZR (k d) * s d <= nth d p 0 < o d + (IZR (k d) + 1) * s d)%R.
Definition same_cell (D : nat) (o s : nat -> R) (p q : list R) : Prop :=
  exists k, in_cell D o s k p /\ in_cell D o s k q.

(** The labels are exactly 0 .. C-1. *)
Definition compact_range (lab : list Z) : Prop :=
  exists C : nat, forall l, In l lab <-> (0 <= l < Z.of_nat C)%Z.

(** o is the vector of the smallest coordinates of the cloud. *)
Definition smallest (D : nat) (o : nat -> R) (x : list (list R)) : Prop :=
  forall d, d < D -> (forall p, In p x -> (o d <= nth d p 0)%R) /\ exists p, In p x /\ nth d p 0%R = o d.
