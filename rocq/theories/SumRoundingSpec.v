(** * Accuracy of a sum. *)

From Coq Require Import ZArith Reals Arith List.
From Flocq Require Import Core.
From Verif Require Import SumRounding.
Local Open Scope R_scope.

Fixpoint sum (n : nat) (x : nat -> R) : R := match n with O => 0 | S m => sum m x + x m end.

(** Half the distance between 1 and the next number. *)
Definition unit_roundoff (t : ftype) : R := / 2 * bpow radix2 (- digits t + 1).

(** A number of the type. *)
Definition representable (t : ftype) (x : R) : Prop :=
  generic_format radix2 (FLT_exp (least t) (digits t)) x.

(** A type with at least two digits, that contains the integers up to 2^digits. *)
Definition proper (t : ftype) : Prop := (2 <= digits t)%Z /\ (least t <= 0)%Z.

(** All numbers of the first type are numbers of the second. *)
Definition narrower (t t' : ftype) : Prop := (digits t <= digits t')%Z /\ (least t' <= least t)%Z.

(** [r] is the sum of the [n] terms [x], up to the factor [e] for the sum of the absolute values. *)
Definition within (e : R) (n : nat) (x : nat -> R) (r : R) : Prop :=
  Rabs (r - sum n x) <= e * sum n (fun j => Rabs (x j)).

(** The columns of slices, in order. *)
Definition columns (slices : list (nat * nat)) : list nat :=
  flat_map (fun p => seq (fst p) (snd p - fst p)) slices.

(** No rounding. *)
Definition exactly (y : R) : R := y.

(** 2^24, ten ones, zeros. *)
Definition spike (j : nat) : R := if (j =? 0)%nat then IZR (2 ^ 24) else if (j <=? 10)%nat then 1 else 0.
