(** Soft dynamic time warping: a soft minimum over all alignments of two sequences (Cuturi and Blondel). *)

From Coq Require Import Reals List Arith.
Import ListNotations.
Local Open Scope R_scope.

(** An alignment of the sequences up to the positions (i, j), last pair first: it begins with (0, 0), and each step
    advances by one position in the first sequence, in the second, or in both. *)
Inductive alignment : nat -> nat -> list (nat * nat) -> Prop :=
  | al_start : alignment 0 0 [(0, 0)]%nat
  | al_first : forall i j p, alignment i j p -> alignment (S i) j ((S i, j) :: p)
  | al_second : forall i j p, alignment i j p -> alignment i (S j) ((i, S j) :: p)
  | al_both : forall i j p, alignment i j p -> alignment (S i) (S j) ((S i, S j) :: p).

(** Its cost: the sum of squared differences. *)
Fixpoint cost (x y : nat -> R) (p : list (nat * nat)) : R :=
  match p with
  | nil => 0
  | (i, j) :: q => (x i - y j) * (x i - y j) + cost x y q
  end.

(** A list of all alignments of sequences of n and m elements, each once. *)
Definition all_alignments (n m : nat) (L : list (list (nat * nat))) : Prop :=
  NoDup L /\ forall p, In p L <-> alignment (n - 1) (m - 1) p.

Fixpoint total (f : list (nat * nat) -> R) (L : list (list (nat * nat))) : R :=
  match L with nil => 0 | p :: L => f p + total f L end.

(** The soft minimum of the costs. *)
Definition soft_min (gamma : R) (x y : nat -> R) (L : list (list (nat * nat))) : R :=
  - gamma * ln (total (fun p => exp (- cost x y p / gamma)) L).

(** The sequence with the element [i] replaced. *)
Definition put (x : nat -> R) (i : nat) (u : R) : nat -> R := fun k => if (k =? i)%nat then u else x k.
