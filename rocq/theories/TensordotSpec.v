(** Contractions of tensors, by multi-indices (LayoutSpec.v: [index], [number]). *)

From Coq Require Import Reals List Arith Permutation.
From Verif Require Import LayoutSpec.
Import ListNotations.

(** Sum over all the indices of a shape. *)
Fixpoint range_sum (n : nat) (f : nat -> R) : R :=
  match n with O => 0%R | S n => (range_sum n f + f n)%R end.
Fixpoint sum_over (shape : list nat) (f : list nat -> R) : R :=
  match shape with
  | [] => f []
  | n :: shape => range_sum n (fun i => sum_over shape (fun idx => f (i :: idx)))
  end.

(** Axes below n that are not contracted, in order. *)
Definition kept (n : nat) (cont : list nat) : list nat :=
  filter (fun p => negb (existsb (Nat.eqb p) cont)) (seq 0 n).

(** Place of an axis in the list of contracted axes. *)
Fixpoint place (p : nat) (cont : list nat) : option nat :=
  match cont with
  | [] => None
  | q :: cont => if Nat.eqb p q then Some 0 else match place p cont with Some k => Some (S k) | None => None end
  end.

(** The index of a tensor with n axes: [c] along the contracted axes, [keep] along the others. *)
Definition full_index (n : nat) (cont c keep : list nat) : list nat :=
  map (fun p => match place p cont with
                | Some k => nth k c 0
                | None => nth (List.length (kept p cont)) keep 0
                end) (seq 0 n).

(** Sizes along some axes. *)
Definition sizes (dims axes : list nat) : list nat := map (fun p => nth p dims 0) axes.

(** Contractions that make sense: distinct axes of each tensor, of the same sizes, that are not zero, and p a
    permutation of the axes that are kept. *)
Record good (da db ca cb p : list nat) : Prop := {
  g_pos : Forall (fun d => 0 < d) (sizes da ca);
  g_nodup_a : NoDup ca;
  g_nodup_b : NoDup cb;
  g_range_a : Forall (fun q => q < List.length da) ca;
  g_range_b : Forall (fun q => q < List.length db) cb;
  g_sizes : sizes da ca = sizes db cb;
  g_perm : Permutation p (seq 0 (List.length (kept (List.length da) ca) + List.length (kept (List.length db) cb)))
}.

(** numpy.tensordot, at the entry of index ka ++ kb. *)
Definition dot (dimsa dimsb ca cb : list nat) (a b : nat -> R) (ka kb : list nat) : R :=
  sum_over (sizes dimsa ca) (fun c =>
    (a (number dimsa (full_index (List.length dimsa) ca c ka))
     * b (number dimsb (full_index (List.length dimsb) cb c kb)))%R).

(** Axis i of x is axis perm[i] of y. *)
Definition moved (perm x y : list nat) : Prop :=
  List.length y = List.length x
  /\ forall i, i < List.length x -> nth (nth i perm 0) y 0 = nth i x 0.

(** Scalar product of arrays. *)
Definition inner (n : nat) (x y : nat -> R) : R := range_sum n (fun k => (x k * y k)%R).

(** Kronecker product: along each axis, the index of the second tensor varies fastest. *)
Fixpoint kron_shape (da db : list nat) : list nat :=
  match da, db with d :: da, e :: db => (d * e) :: kron_shape da db | _, _ => [] end.
Fixpoint kron_index (db x y : list nat) : list nat :=
  match db, x, y with e :: db, i :: x, l :: y => (i * e + l) :: kron_index db x y | _, _, _ => [] end.
