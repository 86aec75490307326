(** * Values of an expression at a pair of indices, and transposed expressions. *)

From Coq Require Import ZArith List Bool Ascii String.
From Verif Require Import Keys LazyTensors LazySpec.
Import ListNotations.
Open Scope string_scope.

(** The index at which a variable is read: the first one for the category 0, the second one for the
    category 1, none for a parameter. *)
Definition pick {I : Type} (cat : Z) (i j : I) : option I :=
  if (cat =? 0)%Z then Some i else if (cat =? 1)%Z then Some j else None.

(** Value at [(i, j)]; [mem] gives the contents of the tensors and [sym] those of the symbolic variables. *)
Definition value_at {V A I : Type} (m : meaning V) (read : A -> Z -> option I -> V)
  (mem sym : Z -> A) (i j : I) (e : expr) : V :=
  value m (fun a d c => read (mem a) d (pick c i j)) (fun a d c => read (sym a) d (pick c i j)) e.

Definition other_side (c : Z) : Z :=
  if (c =? 0)%Z then 1%Z else if (c =? 1)%Z then 0%Z else c.

(** The expression where categories 0 and 1 are exchanged, and tensors are renamed by [g]. *)
Fixpoint exchanged (g : Z -> Z) (e : expr) : expr :=
  match e with
  | EVar a b c => EVar (g a) b (other_side c)
  | ESym a b c => ESym a b (other_side c)
  | ECst a => ECst a
  | EUn a e b => EUn a (exchanged g e) b
  | EBin a e b f c => EBin a (exchanged g e) b (exchanged g f) c
  | ETer a e b f c g' d => ETer a (exchanged g e) b (exchanged g f) c (exchanged g g') d
  end.

(** Views have the contents of the original tensors. *)
Definition same_contents {A : Type} (mem : Z -> A) (l r : lazy) : Prop :=
  Forall2 (fun x y => mem (t_id y) = mem (t_id x)) (variables l) (variables r).

Definition count_arrays (l : lazy) : nat :=
  List.length (filter (fun v => match t_data v with Array _ => true | Floats _ => false end)
                 (variables l)).
