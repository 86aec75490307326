(** Specification of broadcasting and of its transpose. *)

From Coq Require Import Reals List Bool Arith.
Import ListNotations.
Local Open Scope nat_scope.

(** All the multi-indices of a shape, and the position of an index in row-major order. *)
Fixpoint all_indices (s : list nat) : list (list nat) :=
  match s with
  | [] => [[]]
  | n :: s' => flat_map (fun a => map (cons a) (all_indices s')) (seq 0 n)
  end.
Fixpoint position (s idx : list nat) : nat :=
  match s, idx with
  | n :: s', a :: idx' => a * fold_right Nat.mul 1 s' + position s' idx'
  | _, _ => 0
  end.
Definition at_index (s : list nat) (u : nat -> R) (idx : list nat) : R := u (position s idx).

(** Shape [a] is broadcast to shape [b]: each dimension is kept, or is one. *)
Definition stretches (a b : list nat) : Prop := Forall2 (fun x y => x = y \/ x = 1 /\ 1 <= y) a b.

(** The entry of an array of shape [a] seen at an index of the larger shape. *)
Fixpoint seen (a idx : list nat) : list nat :=
  match a, idx with
  | x :: a', i :: idx' => (if x =? 1 then 0 else i) :: seen a' idx'
  | _, _ => []
  end.

Definition sum_over {A : Type} (l : list A) (f : A -> R) : R := fold_right Rplus 0%R (map f l).

Fixpoint same_index (a b : list nat) : bool :=
  match a, b with
  | [], [] => true
  | x :: a', y :: b' => (x =? y) && same_index a' b'
  | _, _ => false
  end.

(** Sum of [g], given on the indices of [b], over the indices where entry [idx] of the array of shape [a] is seen. *)
Definition gathered (a b : list nat) (g : list nat -> R) (idx : list nat) : R :=
  sum_over (filter (fun p => same_index (seen a p) idx) (all_indices b)) g.

(** Derivative of a function of the entries of an array of shape [s], at [x], along [h], given by the numbers [g]. *)
Definition gradient_at (s : list nat) (F : (list nat -> R) -> R) (x g : list nat -> R) : Prop :=
  forall h, derivable_pt_lim (fun t => F (fun p => x p + t * h p)%R) 0 (sum_over (all_indices s) (fun p => g p * h p)%R).

(** Forget the row: the last but one entry of an index. *)
Definition drop_row (p : list nat) : list nat := removelast (removelast p) ++ [last p 0].
