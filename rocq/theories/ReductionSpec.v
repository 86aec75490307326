(** Specifications of reductions, component by component, on sequences of values. *)

From Coq Require Import ZArith Reals List Sorted Permutation Arith.
From Verif Require Import XReal.
Import ListNotations.

(** Order on extended reals (NaN is not comparable). *)
Definition xlt (x y : xr) : Prop :=
  match x, y with
  | Fin a, Fin b => (a < b)%R
  | Fin _, PInf | NInf, Fin _ | NInf, PInf => True
  | _, _ => False
  end.
Definition xle (x y : xr) : Prop := xlt x y \/ (x = y /\ x <> NaN).

(** x is at least as good as y: smaller for min, larger for max. *)
Definition as_good (mx : bool) (x y : xr) : Prop := if mx then xle y x else xle x y.

(** A sequence is a list of (index, value).  [first_best mx l i v]: v is the optimum of l and i
    the smallest index where it is attained. *)
Definition first_best (mx : bool) (l : list (Z * xr)) (i : Z) (v : xr) : Prop :=
  In (i, v) l /\ forall j w, In (j, w) l -> as_good mx v w /\ (w = v -> (i <= j)%Z).

(** Lexicographic order on (value, index). *)
Definition lex (a b : xr * Z) : Prop :=
  xlt (fst a) (fst b) \/ (fst a = fst b /\ (snd a < snd b)%Z).

(** [k_smallest K l out]: out lists the K smallest elements of l in increasing order, equal
    values by increasing index, completed by (+inf, 0) when l is too short. *)
Definition k_smallest (K : nat) (l out : list (xr * Z)) : Prop :=
  exists taken left,
    Permutation l (taken ++ left) /\
    length taken = Nat.min K (length l) /\
    out = taken ++ repeat (PInf, 0%Z) (K - length l) /\
    StronglySorted lex taken /\
    forall a b, In a taken -> In b left -> lex a b.

(** Component k of a sequence of vectors. *)
Definition column (k : nat) (l : list (Z * (nat -> xr))) : list (Z * xr) :=
  map (fun p => (fst p, snd p k)) l.

(** Increasing indices, no NaN among the first d components. *)
Definition good_seq (d : nat) (l : list (Z * (nat -> xr))) : Prop :=
  StronglySorted Z.lt (map fst l) /\
  forall z x, In (z, x) l -> forall k, k < d -> x k <> NaN.

(** The vectors F 0, ..., F (n-1) with indices 0, ..., n-1. *)
Definition dense (n : nat) (F : nat -> nat -> xr) : list (Z * (nat -> xr)) :=
  map (fun j => (Z.of_nat j, F j)) (seq 0 n).

(** Increasing indices, values below +inf. *)
Definition finite_seq (d : nat) (l : list (Z * (nat -> xr))) : Prop :=
  StronglySorted Z.lt (map fst l) /\
  forall z x, In (z, x) l -> forall k, k < d -> x k <> NaN /\ x k <> PInf.
