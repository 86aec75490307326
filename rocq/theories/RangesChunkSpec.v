(** Specifications for block-sparse and batched reductions by chunks. *)

From Coq Require Import ZArith List.
From Verif Require Import Result Formula XReal Reductions Loader.
Import ListNotations.

(** The reduction does not use the indices of the terms. *)
Definition ignores_index (r : reduction) : Prop := forall a x i j, rshort r a x i = rshort r a x j.

(** All the parameters of the formula have the same batch sizes. *)
Definition same_batches (f : fm) (argshapes : Z -> list nat) (nb : nat) : Prop :=
  forall a d a' d', In (a, d, 2) (vars f) -> In (a', d', 2) (vars f) ->
    firstn nb (argshapes a) = firstn nb (argshapes a').
