(** * The broadcasting rule of NumPy.

    Shapes are compared from their last dimension; missing dimensions count as one;
    two dimensions are compatible when they are equal or when one of them is one, and
    the result then has the other one. *)

From Coq Require Import ZArith List.
Import ListNotations.
Local Open Scope Z_scope.

(** Dimension [k] counted from the end. *)
Definition from_end (k : nat) (s : list Z) : Z := nth k (rev s) 1.

Definition compatible (a b : list Z) : Prop :=
  forall k, from_end k a = from_end k b \/ from_end k a = 1 \/ from_end k b = 1.

Definition broadcasts (a b c : list Z) : Prop :=
  length c = Nat.max (length a) (length b) /\
  forall k, (from_end k a = from_end k b /\ from_end k c = from_end k a)
         \/ (from_end k a = 1 /\ from_end k c = from_end k b)
         \/ (from_end k b = 1 /\ from_end k c = from_end k a).

Definition positive (a : list Z) : Prop := Forall (fun d => 0 < d) a.

Definition positive_opt (a : option (list Z)) : Prop :=
  match a with Some s => positive s | None => True end.

(** [c] is the result of broadcasting all the shapes of a list. *)
Inductive broadcasts_all : list (list Z) -> list Z -> Prop :=
| BA_one : forall a, broadcasts_all [a] a
| BA_more : forall l a b c, broadcasts_all l b -> broadcasts b a c ->
    broadcasts_all (l ++ [a]) c.
