(** Specification of sums of extended reals. *)

From Coq Require Import Reals.
From Verif Require Import XReal.

(** x 0 + ... + x (n-1), with infinities and NaN propagating. *)
Fixpoint xsum (n : nat) (x : nat -> xr) : xr :=
  match n with O => Fin 0 | S m => xadd (xsum m x) (x m) end.
