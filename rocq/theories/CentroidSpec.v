(** * Weighted means of the classes. *)

From Coq Require Import Reals Arith List.
Import ListNotations.
Local Open Scope R_scope.

(** Sum of [f] over the indices. *)
Fixpoint sum_to (f : nat -> R) (n : nat) : R :=
  match n with O => 0 | S m => sum_to f m + f m end.

(** Sum of [f] over the indices of class [k]. *)
Definition class_sum (lab : list nat) (k : nat) (f : nat -> R) : R :=
  sum_to (fun i => if Nat.eqb (nth i lab O) k then f i else 0) (length lab).

(** Coordinate [d] of the point [i]. *)
Definition coordinate (x : list (list R)) (i d : nat) : R := nth d (nth i x []) 0.

Definition nonempty_class (lab : list nat) (k : nat) : Prop := In k lab.

(** One more than the largest label. *)
Definition classes (lab : list nat) (C : nat) : Prop :=
  (forall k, In k lab -> (k < C)%nat) /\ (C = O \/ In (C - 1)%nat lab).

(** The columns [cols] hold the weighted means of the classes, for weights [w]: a mean for each class
    that is not empty and no number for the others. *)
Definition weighted_means (lab : list nat) (x : list (list R)) (D : nat) (w : nat -> R)
    (cols : list (list (option R))) : Prop :=
  length cols = D /\
  exists C, classes lab C /\
    forall d, (d < D)%nat ->
      length (nth d cols []) = C /\
      forall k, (k < C)%nat ->
        nth k (nth d cols []) None
        = if in_dec Nat.eq_dec k lab
          then Some (class_sum lab k (fun i => w i * coordinate x i d) / class_sum lab k w)
          else None.

(** The entry of class [k] in a column. *)
Definition entry (cols : list (list (option R))) (k d : nat) : option R := nth k (nth d cols []) None.
