(** Vocabulary for the statements about formulas, independent of the simplifier.

    A formula denotes a vector of [dim f] reals, [eval f e k] being entry k when the
    variables have the values e.  Two vectors of equal size, or a scalar and a vector, are
    combined entry by entry, the scalar being repeated. *)

From Coq Require Import Reals.
From Verif Require Import Formula.

(** Entry k of a vector of size d, a vector of size 1 being repeated. *)
Definition entry (d : nat) (v : nat -> R) (k : nat) : R :=
  match d with 1%nat => v 0%nat | _ => v k end.

(** Sizes that can be combined. *)
Definition compatible (a b : nat) : Prop := a = b \/ a = 1%nat \/ b = 1%nat.

(** [h] computes the entrywise combination of [f] and [g] by [op] wherever they are
    defined and [ok] holds of the entries. *)
Definition computes2 (op : R -> R -> R) (ok : R -> R -> Prop) (f g h : fm) : Prop :=
  wf h /\ compatible (dim f) (dim g) /\ dim h = Nat.max (dim f) (dim g) /\
  forall e, safe e f -> safe e g ->
    (forall k, (k < dim h)%nat ->
       ok (entry (dim f) (eval f e) k) (entry (dim g) (eval g e) k)) ->
    safe e h /\
    forall k, (k < dim h)%nat ->
      eval h e k = op (entry (dim f) (eval f e) k) (entry (dim g) (eval g e) k).

(** [h] computes the entrywise image of [f] by [op]. *)
Definition computes1 (op : R -> R) (ok : R -> Prop) (f h : fm) : Prop :=
  wf h /\ dim h = dim f /\
  forall e, safe e f -> (forall k, (k < dim f)%nat -> ok (eval f e k)) ->
    safe e h /\ forall k, (k < dim f)%nat -> eval h e k = op (eval f e k).

(** [h] computes the same vector as [f]. *)
Definition equivalent (f h : fm) : Prop :=
  wf h /\ dim h = dim f /\
  forall e, safe e f ->
    safe e h /\ forall k, (k < dim f)%nat -> eval h e k = eval f e k.

(** Sum of v 0 .. v (n-1). *)
Definition total (n : nat) (v : nat -> R) : R :=
  match n with O => 0%R | S m => sum_f_R0 v m end.

(** Formulas built without division: no rational constant, no [Divide] node, and no
    [SumT(f,1)] (a broadcast of a scalar to a scalar). *)
Fixpoint division_free (f : fm) : Prop :=
  match f with
  | Rat _ _ => False
  | Var _ _ _ | Zero _ | Int _ => True
  | Un _ f => division_free f
  | Bin b f g => b <> BDiv /\ division_free f /\ division_free g
  | Ter _ f g h => division_free f /\ division_free g /\ division_free h
  | Lin l f => l <> LSumT 1 /\ division_free f
  | Bil _ f g => division_free f /\ division_free g
  | Cat f g => division_free f /\ division_free g
  | Sel _ f => division_free f
  end.
