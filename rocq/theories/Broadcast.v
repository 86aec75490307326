(** * Batch shapes.

    Models
    - pykeops/pykeops/common/utils.py lines 73-97 ([max_tuple], [check_broadcasting]);
    - pykeops/pykeops/common/lazy_tensor.py lines 196, 424 (batch shape of an array
      with more than three dimensions, of a combination);
    - pykeops/pykeops/common/keops_io/LoadKeOps.py lines 215-225 (batch shape of
      the output of a reduction).

    A shape is a list of integers; [None] is the absence of batch dimensions. *)

From Coq Require Import ZArith List.
From Verif Require Import Result.
Import ListNotations.
Local Open Scope Z_scope.

Notation shape := (list Z) (only parsing).

(** [(1,) * n + dims] where [n] is a difference of lengths, and gives nothing when it is
    negative. *)
Definition pad (n : nat) (dims : shape) : shape := repeat 1 n ++ dims.

(** Line 73: [max] over [zip]. *)
Fixpoint max_tuple (a b : shape) : shape :=
  match a, b with
  | x :: a', y :: b' => Z.max x y :: max_tuple a' b'
  | _, _ => []
  end.

(** The loop at lines 89-93; [false] when it raises. *)
Fixpoint checked (a b : shape) : bool :=
  match a, b with
  | x :: a', y :: b' =>
      if (negb (x =? 1) && negb (y =? 1) && negb (x =? y))%bool then false
      else checked a' b'
  | _, _ => true
  end.

Definition check_broadcasting (dims_1 dims_2 : option shape) : res (option shape) :=
  match dims_1, dims_2 with
  | None, _ => Ok dims_2
  | Some _, None => Ok dims_1
  | Some d1, Some d2 =>
      let p1 := pad (length d2 - length d1) d1 in
      let p2 := pad (length d1 - length d2) d2 in
      if checked p1 p2 then Ok (Some (max_tuple p1 p2)) else KErr
  end.

(** [np.maximum] of two lists: of the same length, or one of length one. *)
Definition np_maximum (a b : shape) : res shape :=
  if Nat.eqb (length a) (length b) then Ok (max_tuple a b)
  else match a, b with
       | [x], _ => Ok (map (Z.max x) b)
       | _, [y] => Ok (map (fun x => Z.max x y) a)
       | _, _ => PyErr
       end.

(** [reduce]; fails without arguments. *)
Fixpoint reduce_from (a : shape) (l : list shape) : res shape :=
  match l with
  | [] => Ok a
  | b :: l' => do c <- np_maximum a b ; reduce_from c l'
  end.

Definition genred_batch (nbatchdims : nat) (args : list shape) : res shape :=
  match map (firstn nbatchdims) args with
  | [] => PyErr
  | a :: l => reduce_from a l
  end.
