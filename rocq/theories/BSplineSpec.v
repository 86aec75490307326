(** B-spline functions: the recursion of Cox and de Boor. *)

From Coq Require Import Reals Arith.
Local Open Scope R_scope.

(** A quotient by zero counts for zero. *)
Definition over (a b : R) : R := if Req_EM_T b 0 then 0 else a / b.

(** The function of order [k] that begins at the knot [i]. *)
Fixpoint basis (t : nat -> R) (k i : nat) (x : R) : R :=
  match k with
  | O => if Rle_dec (t i) x then if Rlt_dec x (t (i + 1)%nat) then 1 else 0 else 0
  | S p =>
      over (x - t i) (t (i + k)%nat - t i) * basis t p i x
      + over (t (i + k + 1)%nat - x) (t (i + k + 1)%nat - t (i + 1)%nat) * basis t p (i + 1) x
  end.

Definition sorted_knots (n : nat) (t : nat -> R) : Prop := forall i, (i + 1 < n)%nat -> t i <= t (i + 1)%nat.

Fixpoint sum_to (n : nat) (f : nat -> R) : R := match n with O => 0 | S m => sum_to m f + f m end.
