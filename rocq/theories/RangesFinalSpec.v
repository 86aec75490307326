(** Conditions of C54. *)

From Coq Require Import ZArith List.
From Verif Require Import Formula Loader.
Import ListNotations.

(** No parameter of the formula has batch dimensions other than 1. *)
Definition single_parameters (f : fm) (argshapes : Z -> list nat) (nb : nat) : Prop :=
  forall a d, In (a, d, 2) (vars f) -> forall n, In n (firstn nb (argshapes a)) -> n = 1.
