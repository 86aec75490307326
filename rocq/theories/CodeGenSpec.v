(** * Specification for the generated code (C47). *)

From Coq Require Import ZArith Reals List Bool String.
From Verif Require Import Formula XReal CodeGen CSem.
Import ListNotations.
Local Open Scope nat_scope.

(** The variable of index [i] and dimension [d] occurs in the formula. *)
Fixpoint occurs (i : Z) (d : nat) (f : fm) : Prop :=
  match f with
  | Var j n _ => i = j /\ d = n
  | Zero _ | Int _ | Rat _ _ => False
  | Un _ f | Lin _ f | Sel _ f => occurs i d f
  | Bin _ f g | Bil _ f g | Cat f g => occurs i d f \/ occurs i d g
  | Ter _ f g h => occurs i d f \/ occurs i d g \/ occurs i d h
  end.

(** The entry of every variable of [f] in the table is an array of its dimension which holds its
    value, and which is not a part of the array [out]. *)
Definition loaded (rho : indices) (e : env) (f : fm) (table : list (option c_array)) (m : mem) (out : ptr) : Prop :=
  forall i d, occurs i d f ->
    (0 <= i)%Z /\ exists a, nth_error table (Z.to_nat i) = Some (Some a) /\ adim a = d
      /\ base (aptr a) <> base out
      /\ forall k, k < d -> read rho m (aptr a) k = Some (Fin (e i k)).

(** The names that will be made are not in use. *)
Definition names_new (g : gen) (m : mem) : Prop :=
  forall t c, g t <= c -> get (t ++ "_" ++ Keys.str_int (Z.of_nat c))%string m = None.

(** [n] cells from [p] exist. *)
Definition allocated (rho : indices) (m : mem) (p : ptr) (n : nat) : Prop :=
  exists c, get (base p) m = Some (OArr c) /\ off rho p + n <= List.length c.

(** [m'] is [m] where [n] cells from [p] have received the values [v], and nothing else has changed. *)
Definition stored (rho : indices) (m m' : mem) (p : ptr) (n : nat) (v : nat -> R) : Prop :=
  map fst m' = map fst m
  /\ (forall x, x <> base p -> get x m' = get x m)
  /\ exists c c', get (base p) m = Some (OArr c) /\ get (base p) m' = Some (OArr c')
     /\ List.length c' = List.length c
     /\ (forall k, k < n -> nth_error c' (off rho p + k) = Some (Some (Fin (v k))))
     /\ forall j, j < off rho p \/ off rho p + n <= j -> nth_error c' j = nth_error c j.

(** The names declared by a piece of code. *)
Fixpoint declared (s : stmt) : list string :=
  match s with
  | SSeq s t => declared s ++ declared t
  | SBlock s | SIf _ _ _ s => declared s
  | SArr x _ | SInt x _ | SIntE x _ | SDecl x | SFloat x _ => [x]
  | SFor x _ _ s | SForVar x _ s => x :: declared s
  | SIfElse _ _ _ s t => declared s ++ declared t
  | _ => []
  end.
