(** * What a reduction in half precision should give. *)

From Coq Require Import List Arith.
From Verif Require Import Half2.
Import ListNotations.

(** The value of an argument for the row [i] of the output and the row [j] of the reduction. *)
Definition row_of {A} (axis i j : nat) (a : argument A) : list A :=
  let r := if a_cat a =? 2 then 0 else if a_cat a =? axis then j else i in
  map (at_ (a_array a) r) (seq 0 (cols (a_array a))).

(** The arguments agree on the sizes. *)
Definition sizes_ok {A} (axis M N : nat) (args : list (argument A)) : Prop :=
  forall a, In a args ->
    0 < cols (a_array a)
    /\ (a_cat a = 0 \/ a_cat a = 1 \/ a_cat a = 2)
    /\ rows (a_array a) = (if a_cat a =? 2 then 1 else if a_cat a =? axis then N else M).
